(** The register allocator serves every polite client: lemmas. *)
From Coq Require Import List ZArith Bool Lia Permutation.
From Verif Require Import Base EncModel EmitModel AllocModel AllocSpec ServeSpec EmitTotal.
From Verif Require EmitBasics.
Import ListNotations.
Open Scope Z_scope.

Section Serve.
Variable ss : Z.
Notation well := (well ss).

Definition items (O : list (option item)) : list item := flat_map (fun o => match o with Some x => [x] | None => [] end) O.
Record related (n : Z) (L : list (option Z)) (c : client) (O : list (option item)) : Prop := {
  r_well : well n (fst c) (items O);
  r_names : snd c = map (option_map iid) O;
  r_locks : L = map (option_map ilk) O;
  r_kinds : Forall (fun x => ikd x <> KCond) (items O) }.

Lemma items_app : forall A B, items (A ++ B) = items A ++ items B.
Proof. intros. apply flat_map_app. Qed.
Lemma replace_split : forall A (l1 : list A) x y l2, replace_nth (length l1) y (l1 ++ x :: l2) = l1 ++ y :: l2.
Proof. induction l1 as [|a l1 IH]; intros; cbn; [reflexivity|]. rewrite IH. reflexivity. Qed.
Lemma nth_split_at : forall A (l1 : list A) x l2, nth_error (l1 ++ x :: l2) (length l1) = Some x.
Proof. intros. rewrite nth_error_app2, Nat.sub_diag by lia. reflexivity. Qed.

(** The item of a live value. *)
Lemma find_item : forall n L c O x k, related n L c O -> nth_error L x = Some (Some k) ->
  exists A it B, O = A ++ Some it :: B /\ length A = x /\ ilk it = k /\ ikd it <> KCond /\ well n (fst c) (it :: items A ++ items B) /\
    nth_error (snd c) x = Some (Some (iid it)) /\ Forall (fun x => ikd x <> KCond) (items A ++ items B).
Proof.
  intros n L c O x k [W N K Kd] H. rewrite K in H. rewrite nth_error_map in H. destruct (nth_error O x) as [[it|]|] eqn:E; try discriminate. cbn in H. injection H as <-.
  destruct (nth_error_split _ _ E) as (A & B & -> & La). exists A, it, B. split; [reflexivity|]. split; [exact La|]. split; [reflexivity|].
  rewrite items_app in W, Kd. cbn [items flat_map app] in W, Kd. fold (items B) in W, Kd. apply Forall_app in Kd. destruct Kd as (Ka & Kb). inversion Kb as [|? ? K1 K2]; subst.
  split; [exact K1|]. split; [eapply well_perm; [symmetry; apply Permutation_middle|exact W]|]. split; [rewrite N, nth_error_map, E; reflexivity|]. apply Forall_app. auto.
Qed.

Lemma rebuild : forall n s names A it B it' L, well n s (it' :: items A ++ items B) -> ikd it' <> KCond -> Forall (fun x => ikd x <> KCond) (items A ++ items B) ->
  names = map (option_map iid) (A ++ Some it :: B) -> L = map (option_map ilk) (A ++ Some it :: B) ->
  related n (replace_nth (length A) (Some (ilk it')) L) (s, replace_nth (length A) (Some (iid it')) names) (A ++ Some it' :: B).
Proof.
  intros n s names A it B it' L W K Kd -> ->. rewrite !map_app. cbn [map option_map].
  split; cbn [fst snd].
  - rewrite items_app. cbn [items flat_map app]. fold (items B). eapply well_perm; [apply Permutation_middle|exact W].
  - rewrite map_app. cbn [map option_map]. rewrite <- (map_length (option_map iid) A). apply replace_split.
  - rewrite map_app. cbn [map option_map]. rewrite <- (map_length (option_map ilk) A). apply replace_split.
  - rewrite items_app. cbn [items flat_map app]. fold (items B). apply Forall_app in Kd. apply Forall_app. split; [apply Kd|]. constructor; [exact K|apply Kd].
Qed.

Lemma few_items : forall O, one_register_left (map (option_map ilk) O) -> few (items O).
Proof.
  intros O H. unfold one_register_left in H. unfold few. replace (length (filter is_locked (items O))) with (length (filter locked (map (option_map ilk) O))); [exact H|].
  clear H. induction O as [|[x|] O IH]; cbn; [reflexivity| |exact IH]. unfold is_locked at 1. destruct (0 <? ilk x); cbn; rewrite IH; reflexivity.
Qed.
Lemma few_drop : forall it K, few (it :: K) -> few K.
Proof. intros it K H. unfold few in *. cbn [filter] in H. destruct (is_locked it); cbn [length] in H; lia. Qed.

Lemma taken : forall n L c O r, related n L c O -> may_take L c r -> forall it, In it (items O) -> rmap (fst c) r = Some (iid it) -> ilk it = 0.
Proof.
  intros n L c O r R M it I H. pose proof R as [W N K Kd]. destruct (owner _ _ _ _ _ _ W H) as (_ & x & Ix & Ex & _ & Hx). 
  assert (x = it) by (eapply same_item; eauto). subst x.
  unfold items in I. apply in_flat_map in I. destruct I as ([x|] & Io & Ii); [|contradiction]. destruct Ii as [->|[]].
  apply In_nth_error in Io. destruct Io as (y & Ey).
  assert (P : place_of c y = Some (In_register r (isz it))) by (unfold place_of; rewrite N, nth_error_map, Ey; cbn [option_map]; rewrite Hx; reflexivity).
  specialize (M y _ P). rewrite K, nth_error_map, Ey in M. cbn in M. congruence.
Qed.

Lemma in_register : forall n L c O x r size, related n L c O -> place_of c x = Some (In_register r size) ->
  exists k, nth_error L x = Some (Some k) /\ exists it, nth_error O x = Some (Some it) /\ rmap (fst c) r = Some (iid it).
Proof.
  intros n L c O x r size [W N K Kd] P. unfold place_of in P. rewrite N, nth_error_map in P. destruct (nth_error O x) as [[it|]|] eqn:E; try discriminate. cbn [option_map] in P.
  exists (ilk it). split; [rewrite K, nth_error_map, E; reflexivity|]. exists it. split; [reflexivity|].
  assert (I : In it (items O)) by (apply in_flat_map; exists (Some it); split; [eapply nth_error_In; exact E|left; reflexivity]).
  destruct (item_state _ _ _ _ _ W I) as (_ & _ & _ & st & Hs & Ok). rewrite Hs in P. cbn [l_state l_size] in P. unfold state_ok in Ok.
  destruct st as [q|v|b i kk off|cc|]; try discriminate.
  - injection P as -> _. destruct (ikd it); [exact Ok|contradiction|contradiction].
  - destruct b, i, kk; discriminate.
Qed.

Lemma new_related : forall n s L names O it, well n s (it :: items O) -> ikd it <> KCond -> ilk it = 0 -> Forall (fun x => ikd x <> KCond) (items O) ->
  names = map (option_map iid) O -> L = map (option_map ilk) O -> related n (L ++ [Some 0]) (s, names ++ [Some (iid it)]) (O ++ [Some it]).
Proof.
  intros n s L names O it W K Z Kd -> ->. split; cbn [fst snd]; rewrite ?map_app, ?items_app; cbn [map option_map items flat_map app]; rewrite ?Z; auto.
  - eapply well_perm; [apply Permutation_cons_append|exact W].
  - apply Forall_app. split; [exact Kd|]. repeat constructor. exact K.
Qed.

Lemma spill_all_runs : forall rs n s K, well (n + Z.of_nat (length rs)) s K -> 0 <= n -> Forall (fun x => ilk x = 0) K ->
  runs (spill_all ss rs) s (fun _ s' => well n s' K).
Proof.
  induction rs as [|r rs IH]; intros n s K W Hn F; cbn [length] in W.
  - eexists _, _. split; [reflexivity|]. eapply well_less; [exact W|lia].
  - unfold runs. cbn [spill_all]. destruct (rmap s r) as [id|] eqn:E.
    + destruct (owner _ _ _ _ _ _ W E) as (_ & x & Ix & Ex & _).
      change (runs (spill_register ss r ;;; spill_all ss rs) s (fun _ s' => well n s' K)).
      eapply runs_bind; [apply (spill_runs ss (n + Z.of_nat (length rs)) s K r x); [replace (n + Z.of_nat (length rs) + 1) with (n + Z.of_nat (S (length rs))) by lia; exact W|lia|exact Ix|congruence|eapply Forall_forall in F; [exact F|exact Ix]]|].
      cbv beta. intros _ s1 (W1 & _). apply IH; assumption.
    + apply (IH n s K); auto. eapply well_less; [exact W|lia].
Qed.

Lemma in_volatile : forall r, In r [0; 1; 2; 8; 9; 10; 11] -> In r volatile.
Proof. intros r H. unfold volatile. cbn in *. lia. Qed.
Lemma size_ok : forall k, k = 1 \/ k = 2 \/ k = 4 \/ k = 8 -> is_size k = true.
Proof. intros k [->|[->|[->| ->]]]; reflexivity. Qed.

Lemma serves : forall n L c O q, related (n + 7) L c O -> 0 <= n -> sensible q -> polite L c q ->
  exists c', serve ss q c = Done c' /\ exists O', related n (book L q) c' O'.
Proof.
  intros n L c O q R Hn Se P. destruct c as (s, names). pose proof R as [W N K Kd]. cbn [fst snd] in W, N.
  assert (Done1 : forall (e : M nat) k, runs e s (fun id s' => well n s' (mkitem id (fst k) 0 (snd k) :: items O)) -> snd k <> KCond ->
     exists c', make (s, names) e = Done c' /\ exists O', related n (L ++ [Some 0]) c' O').
  { intros e k (id & s' & E & W') Kk. unfold make. cbn [fst snd]. rewrite E. cbn [obind]. eexists. split; [reflexivity|].
    exists (O ++ [Some (mkitem id (fst k) 0 (snd k))]). apply (new_related n s' L names O (mkitem id (fst k) 0 (snd k))); auto. }
  destruct q as [size v|r size v|size v|v|x|x r|x|x|x|]; cbn [serve polite book sensible] in *.
  - apply (Done1 _ (size, KVal)); [|discriminate]. cbn [fst snd].
    eapply runs_bind; [apply (allocate_runs ss n s (items O)); [eapply well_less; [exact W|lia]|exact Hn|apply few_items; rewrite <- K; exact P]|]. cbv beta. intros r s1 (V & R1 & W1 & _).
    eapply runs_bind; [apply (loaded_new ss n s1 _ r size W1 R1 V (size_ok _ Se))|]. cbv beta. intros id s2 (W2 & _).
    eapply runs_bind; [apply (runs_out ss n s2 _ _ W2)|]. cbv beta. intros _ s3 (W3 & _). apply runs_ret. exact W3.
  - destruct Se as (Sr & Se). apply (Done1 _ (size, KVal)); [|discriminate]. cbn [fst snd].
    eapply runs_bind; [apply (specific_runs ss n s (items O) r); [eapply well_less; [exact W|lia]|exact Hn|exact (taken _ _ _ _ _ R P)]|]. cbv beta. intros _ s1 (_ & W1 & R1).
    eapply runs_bind; [apply (loaded_new ss n s1 _ r size W1); [rewrite R1, Z.eqb_refl; reflexivity|apply in_volatile, Sr|apply size_ok, Se]|]. cbv beta. intros id s2 (W2 & _).
    eapply runs_bind; [apply (runs_out ss n s2 _ _ W2)|]. cbv beta. intros _ s3 (W3 & _). apply runs_ret. exact W3.
  - apply (Done1 _ (size, KImm)); [|discriminate]. cbn [fst snd]. unfold emit_location_immediate. eexists _, _. split; [reflexivity|].
    apply (well_new ss n s (items O) (mkitem (length (heap s)) size 0 KImm) (Immediate (wraps 64 v)) 0); cbn; auto; [eapply well_less; [exact W|lia]|apply size_ok, Se].
  - destruct (allocate_runs ss n s (items O)) as (r & s1 & E & V & R1 & W1 & _); [eapply well_less; [exact W|lia]|exact Hn|apply few_items; rewrite <- K; exact P|].
    cbn [fst snd]. unfold bind. rewrite E. cbn [obind]. unfold out. cbn [obind]. eexists. split; [reflexivity|]. exists O. split; auto. apply well_out. exact W1.
  - destruct P as (Lx & P). destruct (find_item _ _ _ _ _ _ R Lx) as (A & it & B & -> & La & Li & Ki & Wi & Ni & Kr). cbn [fst snd] in Wi, Ni.
    unfold named. cbn [fst snd]. rewrite Ni.
    destruct (load_runs ss n s (items A ++ items B) it) as (id & s1 & E & W1 & _); [eapply well_less; [exact Wi|lia]|exact Hn|exact Li| |].
    { rewrite K in P. apply few_items in P. rewrite items_app in P. cbn [items flat_map app] in P. fold (items B) in P.
      unfold few in *. rewrite filter_app in *. cbn [filter] in P. rewrite app_length in *. destruct (is_locked it); cbn [length] in P; lia. }
    unfold bind. rewrite E. cbn [obind ret]. eexists. split; [reflexivity|]. exists (A ++ Some (mkitem id (isz it) 0 KVal) :: B).
    pose proof (rebuild n s1 names A it B (mkitem id (isz it) 0 KVal) L W1 ltac:(discriminate) Kr N K) as X. cbn [iid ilk] in X. rewrite La in X.
    replace (replace_nth x (Some 0) L) with L in X; [exact X|]. rewrite K, map_app. cbn [map option_map]. rewrite Li, <- La, <- (map_length (option_map ilk) A), replace_split. reflexivity.
  - destruct P as (Lx & P). pose proof (taken _ _ _ _ _ R P) as Tk. cbn [fst] in Tk. destruct (find_item _ _ _ _ _ _ R Lx) as (A & it & B & -> & La & Li & Ki & Wi & Ni & Kr). cbn [fst snd] in Wi, Ni.
    unfold named. cbn [fst snd]. rewrite Ni.
    assert (Goal : runs (load_into ss (iid it) r) s (fun id s' => well n s' (mkitem id (isz it) 0 KVal :: items A ++ items B))).
    { unfold load_into. eapply runs_bind; [apply (get_runs ss _ _ _ it Wi); left; reflexivity|]. cbv beta. intros l s0 (-> & st & -> & Hs & Ok). cbn [l_state].
      assert (Gen : runs (allocate_specific_register ss r ;;; emit_load_into_specific_gpr ss (iid it) r) s (fun id s' => well n s' (mkitem id (isz it) 0 KVal :: items A ++ items B))).
      { eapply runs_bind; [apply (specific_runs ss (n + 1) s (it :: items A ++ items B) r); [eapply well_less; [exact Wi|lia]|lia|]|].
        - intros y Iy. apply Tk. rewrite items_app. cbn [items flat_map app]. fold (items B). eapply Permutation_in; [apply Permutation_middle|exact Iy].
        - cbv beta. intros _ s1 (_ & W1 & R1).
          eapply runs_weaken; [apply (load_into_runs ss _ n s1 (items A ++ items B) it r (loads_bp_load ss) W1 Hn Li (in_volatile _ Se)); intros y _ Hy; rewrite R1, Z.eqb_refl in Hy; discriminate|].
          cbv beta. intros id s2 (W2 & _). exact W2. }
      destruct st as [q|?|? ? ? ?|?|]; try exact Gen. destruct (q =? r); [|exact Gen]. apply runs_ret.
      unfold state_ok in Ok. replace (mkitem (iid it) (isz it) 0 KVal) with it; [eapply well_less; [exact Wi|lia]|].
      destruct it as [i z lk kd]. cbn in *. destruct kd; try contradiction. congruence. }
    destruct Goal as (id & s1 & E & W1).
    unfold bind. rewrite E. cbn [obind ret]. eexists. split; [reflexivity|]. exists (A ++ Some (mkitem id (isz it) 0 KVal) :: B).
    pose proof (rebuild n s1 names A it B (mkitem id (isz it) 0 KVal) L W1 ltac:(discriminate) Kr N K) as X. cbn [iid ilk] in X. rewrite La in X.
    replace (replace_nth x (Some 0) L) with L in X; [exact X|]. rewrite K, map_app. cbn [map option_map]. rewrite Li, <- La, <- (map_length (option_map ilk) A), replace_split. reflexivity.
  - destruct P as (r & size & P). destruct (in_register _ _ _ _ _ _ _ R P) as (k & Lx & it0 & Eo & Rr). destruct (find_item _ _ _ _ _ _ R Lx) as (A & it & B & -> & La & Li & Ki & Wi & Ni & Kr). cbn [fst snd] in Wi, Ni, Rr.
    assert (it0 = it) by (rewrite <- La, nth_split_at in Eo; congruence). subst it0.
    unfold named. cbn [fst snd]. rewrite Ni, Lx.
    destruct (lock_runs ss (emit_load_gpr ss) (n + 7) s (items A ++ items B) it r Wi Rr) as (u & s1 & E & W1 & _). unfold prevent_spilling, bind. rewrite E. cbn [obind ret]. eexists. split; [reflexivity|].
    exists (A ++ Some (relock 1 it) :: B).
    pose proof (rebuild n s1 names A it B (relock 1 it) L ltac:(eapply well_less; [exact W1|lia]) Ki Kr N K) as X. rewrite La in X.
    replace (ilk (relock 1 it)) with (k + 1) in X by (cbn; lia). exact X.
  - destruct P as (r & size & k & P & Lx & Hk). destruct (in_register _ _ _ _ _ _ _ R P) as (k' & Lx' & it0 & Eo & Rr). destruct (find_item _ _ _ _ _ _ R Lx) as (A & it & B & -> & La & Li & Ki & Wi & Ni & Kr). cbn [fst snd] in Wi, Ni, Rr.
    assert (it0 = it) by (rewrite <- La, nth_split_at in Eo; congruence). subst it0.
    unfold named. cbn [fst snd]. rewrite Ni, Lx.
    destruct (allow_runs ss (n + 7) s (items A ++ items B) it r Wi Rr ltac:(lia)) as (u & s1 & E & W1 & _). unfold bind. rewrite E. cbn [obind ret]. eexists. split; [reflexivity|].
    exists (A ++ Some (relock (-1) it) :: B).
    pose proof (rebuild n s1 names A it B (relock (-1) it) L ltac:(eapply well_less; [exact W1|lia]) Ki Kr N K) as X. rewrite La in X.
    replace (ilk (relock (-1) it)) with (k - 1) in X by (cbn; lia). exact X.
  - destruct (find_item _ _ _ _ _ _ R P) as (A & it & B & -> & La & Li & Ki & Wi & Ni & Kr). cbn [fst snd] in Wi, Ni.
    unfold named. cbn [fst snd]. rewrite Ni, P.
    destruct (free_runs ss (n + 7) s (items A ++ items B) it Wi Li) as (u & s1 & E & W1 & _). unfold bind. rewrite E. cbn [obind ret]. eexists. split; [reflexivity|].
    exists (A ++ None :: B). split; cbn [fst snd].
    + rewrite items_app. cbn [items flat_map app]. fold (items B). eapply well_less; [exact W1|lia].
    + rewrite N, !map_app. cbn [map option_map]. rewrite <- La, <- (map_length (option_map iid) A). apply replace_split.
    + rewrite K, !map_app. cbn [map option_map]. rewrite <- La, <- (map_length (option_map ilk) A). apply replace_split.
    + rewrite items_app. cbn [items flat_map app]. exact Kr.
  - assert (F : Forall (fun x => ilk x = 0) (items O)).
    { rewrite K in P. apply Forall_forall. intros it I. pose proof (item_state _ _ _ _ _ W I) as (_ & _ & Li & _). unfold items in I. apply in_flat_map in I. destruct I as ([y|] & Io & Ii); [|contradiction]. destruct Ii as [->|[]].
      eapply Forall_forall in P; [|apply List.in_map; exact Io]. cbn in P. apply Z.ltb_ge in P. lia. }
    destruct (spill_all_runs volatile n s (items O)) as (u & s1 & E & W1); [exact W|exact Hn|exact F|].
    cbn [fst snd]. rewrite E. cbn [obind]. eexists. split; [reflexivity|]. exists O. split; auto.
Qed.

Lemma history_related : forall n0 qs c, history ss n0 qs c -> forall n, 0 <= n -> 0 <= ss -> ss + 16 * (n + 7 * Z.of_nat (length qs)) <= 2147483648 ->
  exists O, related n (books qs) c O.
Proof.
  intros n0 qs c H. induction H as [|qs c q c' H IH Se P E]; intros n Hn Hs Hb.
  - exists []. split; try reflexivity; [|constructor]. cbn [fst start items flat_map]. cbn [length Z.of_nat] in Hb. split.
    + exists 0. split; [reflexivity|lia].
    + intros r id X. discriminate.
    + intros x [].
    + constructor.
    + cbn [tsa]. lia.
  - rewrite app_length in Hb. cbn [length] in Hb. destruct (IH (n + 7) ltac:(lia) Hs ltac:(lia)) as (O & R).
    destruct (serves n _ c O q R Hn Se P) as (c2 & E2 & O' & R'). assert (c2 = c') by congruence. subst c2. exists O'. unfold books. rewrite fold_left_app. exact R'.
Qed.
End Serve.

Theorem served : forall stack_space n qs c q, history stack_space n qs c -> sensible q -> polite (books qs) c q ->
  0 <= stack_space -> stack_space + 112 * (Z.of_nat (length qs) + 1) <= 2 ^ 31 ->
  exists c', serve stack_space q c = Done c'.
Proof.
  intros ss n qs c q H Se P Hs Hb. change (2 ^ 31) with 2147483648 in Hb.
  destruct (history_related ss n qs c H 7 ltac:(lia) Hs ltac:(lia)) as (O & R).
  destruct (serves ss 0 _ c O q R ltac:(lia) Se P) as (c' & E & _). exists c'. exact E.
Qed.
