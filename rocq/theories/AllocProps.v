(** C16: register allocation never destroys a live value. *)
From Verif Require Import Base EncModel EmitModel X64Machine AllocModel AllocSpec AllocProofs.

(** For every history of requests the allocator serves, executing the code emitted so far
    leaves every value that was made and not freed with the value it was made with, in the
    place the generator believes it to be.  Different values are in different registers or
    in disjoint stack slots; slots are below the declarations ([stack_space] bytes) and
    inside the [room] reserved for temporaries; no other memory and no other register
    changes.  It holds after every prefix of a history as prefixes are histories. *)
Theorem C16_live_values_survive : forall stack_space room n qs c m0,
  0 <= stack_space -> 0 <= room -> stack_space + room <= 2 ^ 31 -> stack_space + room <= regs m0 5 ->
  (forall r, 0 <= regs m0 r < 2 ^ 64) -> pc m0 = 0 -> Forall sensible qs ->
  serve_all stack_space qs (start n) = Done c -> tsa (fst c) <= room ->
  exists m, steps (code (fst c)) m0 m /\ pc m = Z.of_nat (length (code (fst c))) /\
    (forall x size v, nth_error (values qs) x = Some (size, v) -> ~ In (Free x) qs ->
       exists p, place_of c x = Some p /\ place_size p = size /\ contents m p = v mod 2 ^ (8 * size)) /\
    (forall x y p q, x <> y -> place_of c x = Some p -> place_of c y = Some q -> apart p q) /\
    (forall x off size, place_of c x = Some (In_slot off size) -> - (stack_space + room) <= off /\ off + size <= - stack_space) /\
    (forall a, ~ (regs m0 5 - stack_space - room <= a < regs m0 5 - stack_space) -> mem m a = mem m0 a) /\
    (forall r, ~ In r [0; 1; 2; 8; 9; 10; 11] -> regs m r = regs m0 r).
Proof. exact allocator. Qed.
Print Assumptions C16_live_values_survive.

(** A lock pins a value: one that is in a register when it is locked is still in that
    register after any further requests, until it is unlocked, freed or explicitly moved to
    another register. *)
Theorem C16_locked_values_stay : forall stack_space room n before x r size during c c',
  0 <= stack_space -> 0 <= room -> stack_space + room <= 2 ^ 31 -> Forall sensible before -> Forall sensible during ->
  serve_all stack_space before (start n) = Done c -> place_of c x = Some (In_register r size) ->
  serve_all stack_space (Lock x :: during) c = Done c' -> tsa (fst c') <= room ->
  ~ In (Unlock x) during -> ~ In (Free x) during -> (forall r', ~ In (Load_into x r') during) ->
  place_of c' x = Some (In_register r size).
Proof. exact locks. Qed.
Print Assumptions C16_locked_values_stay.
Definition locked_before : list request := [Make 8 100; Make 4 101; Make 1 102; Make 2 103].
Definition locked_during : list request :=
  [Make 8 104; Constant 8 105; Make 8 106; Make 8 107; Make 8 108; Make 4 109; Load 0; Free 4; Scratch 7; Load_into 5 0].
Example C16_lock_case :
  match serve_all 32 locked_before (start 0) with
  | Done c => match serve_all 32 (Lock 1 :: locked_during) c with
              | Done c' => Some (place_of c 1, place_of c 2, place_of c' 1, place_of c' 2, tsa (fst c') <=? 64)
              | _ => None
              end
  | _ => None
  end = Some (Some (In_register 2 4), Some (In_register 8 1), Some (In_register 2 4), Some (In_slot (-41) 1), true).
Proof. vm_compute. reflexivity. Qed.

(** A history with more live values than registers: two values end up in stack slots, one
    of them is loaded again, one locked value stays in its register. *)
Definition pressure : list request :=
  [Make 8 100; Make 4 101; Make 1 102; Make 2 103; Lock 1; Make 8 104; Constant 8 105; Make 8 106; Make 8 107;
   Make 8 108; Make 4 109; Load 0; Free 4; Scratch 7; Load_into 5 0; Unlock 1].
Example C16_pressure : exists c, serve_all 32 pressure (start 0) = Done c /\ tsa (fst c) <= 64 /\ Forall sensible pressure /\
  place_of c 0 = Some (In_register 8 8) /\ place_of c 1 = Some (In_register 2 4) /\ place_of c 2 = Some (In_slot (-41) 1) /\
  place_of c 4 = None /\ place_of c 5 = Some (In_register 0 8) /\ place_of c 9 = Some (In_slot (-48) 4).
Proof.
  assert (S : Forall sensible pressure).
  { unfold pressure. repeat (constructor; [cbn; tauto|]). constructor. }
  assert (E : match serve_all 32 pressure (start 0) with
              | Done c => (tsa (fst c) <=? 64, map (place_of c) [0; 1; 2; 4; 5; 9]%nat)
              | _ => (false, []) end
            = (true, [Some (In_register 8 8); Some (In_register 2 4); Some (In_slot (-41) 1); None; Some (In_register 0 8); Some (In_slot (-48) 4)])).
  { vm_compute. reflexivity. }
  destruct (serve_all 32 pressure (start 0)) as [c| |]; try discriminate E.
  exists c. cbn [map] in E. split; [reflexivity|]. split; [apply Z.leb_le; congruence|]. split; [exact S|]. repeat split; congruence.
Qed.

(** Storing one live value through another, as [emit_store] (emit_x64.c 1548) does it. *)
Definition store_through (stack_space : Z) (address value : nat) : M unit :=
  d <- emit_location_register_relative address None 0 8 ;; emit_store stack_space d value.

(** The claim for stores: memory holds the value afterwards. *)
Definition store_claim : Prop := forall stack_space room n qs s names m0 x y a b A V u s',
  0 <= stack_space -> 0 <= room -> stack_space + room <= 2 ^ 31 -> stack_space + room <= regs m0 5 ->
  (forall r, 0 <= regs m0 r < 2 ^ 64) -> pc m0 = 0 -> Forall sensible qs ->
  serve_all stack_space qs (start n) = Done (s, names) ->
  nth_error names x = Some (Some a) -> nth_error names y = Some (Some b) -> x <> y ->
  nth_error (values qs) x = Some (8, A) -> nth_error (values qs) y = Some (8, V) -> 0 <= A < 2 ^ 32 -> A + 8 <= regs m0 5 - stack_space - room ->
  store_through stack_space a b s = Done (u, s') -> tsa s' <= room ->
  exists m, steps (code s') m0 m /\ pc m = Z.of_nat (length (code s')) /\ load 8 (mem m) A = V mod 2 ^ 64.

(** It fails: [emit_store] does not lock its source while it loads the base of the
    destination.  With all registers in use the source is the one that is spilled, and the
    generated instruction stores the address itself. *)
Definition clash : list request :=
  [Make 8 4096; Make 8 77; Make 8 2; Make 8 3; Make 8 4; Make 8 5; Make 8 6; Make 8 7].
Definition clash_machine : machine := mkmachine (fun r => if r =? 5 then 65536 else 0) (fun _ => 0) None 0.

Fixpoint go (n : nat) (code : list Z) (m : machine) : option machine :=
  match n with
  | O => Some m
  | S n => match step code m with Some m' => go n code m' | None => Some m end
  end.
Lemma go_steps : forall n code m m', go n code m = Some m' -> steps code m m'.
Proof.
  induction n as [|n IH]; intros code m m' E; cbn [go] in E.
  - assert (m' = m) by congruence. subst. apply steps_refl.
  - destruct (step code m) as [m1|] eqn:E1; [eapply steps_step; [exact E1|apply IH, E]|]. assert (m' = m) by congruence. subst. apply steps_refl.
Qed.
Lemma stuck_end : forall code m, pc m = Z.of_nat (length code) -> step code m = None.
Proof.
  intros code m H. unfold step. destruct (Z.ltb_spec (pc m) 0); [reflexivity|]. rewrite H, Nat2Z.id, skipn_all. reflexivity.
Qed.
Lemma steps_end : forall code m a b, steps code m a -> steps code m b -> pc a = Z.of_nat (length code) -> pc b = Z.of_nat (length code) -> a = b.
Proof.
  intros code m a b Ha. revert b. induction Ha as [m|m m1 a E Ha IH]; intros b Hb Pa Pb.
  - destruct Hb as [m|m m1 b E Hb]; [reflexivity|]. rewrite stuck_end in E by exact Pa. discriminate.
  - destruct Hb as [m|m m2 b E' Hb]; [rewrite stuck_end in E by exact Pb; discriminate|].
    assert (m2 = m1) by congruence. subst. apply IH; assumption.
Qed.

Theorem C16_store_refuted : ~ store_claim.
Proof.
  intro Claim.
  assert (E : match serve_all 32 clash (start 0) with
              | Done (s, Some a :: Some b :: names) =>
                  match store_through 32 a b s with
                  | Done (_, s') =>
                      (tsa s' <=? 64) &&
                      match go 20 (code s') clash_machine with
                      | Some m => (pc m =? Z.of_nat (length (code s'))) && (load 8 (mem m) 4096 =? 4096)
                      | None => false
                      end
                  | _ => false
                  end
              | _ => false
              end = true) by (vm_compute; reflexivity).
  destruct (serve_all 32 clash (start 0)) as [[s [|[a|] [|[b|] names]]]| |] eqn:Es; try discriminate E.
  destruct (store_through 32 a b s) as [[u s']| |] eqn:Et; try discriminate E.
  apply andb_true_iff in E. destruct E as (Ht & E). apply Z.leb_le in Ht.
  destruct (go 20 (code s') clash_machine) as [m|] eqn:Eg; [|discriminate].
  apply andb_true_iff in E. destruct E as (Hp & Hl). apply Z.eqb_eq in Hp. apply Z.eqb_eq in Hl. apply go_steps in Eg.
  destruct (Claim 32 64 0%nat clash s (Some a :: Some b :: names) clash_machine 0%nat 1%nat a b 4096 77 u s') as (m' & S' & P' & L');
    try reflexivity; try lia; try assumption.
  - cbn. lia.
  - intro r. cbn. destruct (r =? 5); lia.
  - unfold clash. repeat (constructor; [cbn; tauto|]). constructor.
  - cbn. lia.
  - rewrite (steps_end _ _ _ _ S' Eg P' Hp) in L'. rewrite Hl in L'. discriminate.
Qed.
Print Assumptions C16_store_refuted.
