(** Specification for C16: which requests a client of the register allocator may make.  It models no code of its own;
    the requests are those of AllocModel.v, and the rules are what the asserts and internal errors of /repo/src/emit_x64.c 867-868
    [spill_register], 1017 [allocate_register], 1044 [free_emit_location] and 1116 [emit_location_allow_spilling] ask of the
    callers. *)
From Coq Require Import List ZArith Bool.
From Verif Require Import Base EmitModel AllocModel AllocSpec.
Import ListNotations.
Open Scope Z_scope.

(** What a client must keep track of: for every value it made, [None] once it is freed,
    otherwise how often it is locked. *)
Definition book (L : list (option Z)) (q : request) : list (option Z) :=
  let change x f := match nth_error L x with Some (Some k) => replace_nth x (f k) L | _ => L end in
  match q with
  | Make _ _ | Make_in _ _ _ | Constant _ _ => L ++ [Some 0]
  | Lock x => change x (fun k => Some (k + 1))
  | Unlock x => change x (fun k => Some (k - 1))
  | Free x => change x (fun _ => None)
  | Scratch _ | Load _ | Load_into _ _ | Spill_all => L
  end.
Definition books (qs : list request) : list (option Z) := fold_left book qs [].

Definition locked (o : option Z) : bool := match o with Some k => 0 <? k | None => false end.
(** At most six of the seven registers are locked. *)
Definition one_register_left (L : list (option Z)) : Prop := (length (filter locked L) <= 6)%nat.
(** No locked value is in the register. *)
Definition may_take (L : list (option Z)) (c : client) (r : Z) : Prop :=
  forall y size, place_of c y = Some (In_register r size) -> nth_error L y = Some (Some 0).

Definition polite (L : list (option Z)) (c : client) (q : request) : Prop :=
  match q with
  | Make _ _ | Scratch _ => one_register_left L
  | Make_in r _ _ => may_take L c r
  | Constant _ _ => True
  | Load x => nth_error L x = Some (Some 0) /\ one_register_left L
  | Load_into x r => nth_error L x = Some (Some 0) /\ may_take L c r
  | Lock x => exists r size, place_of c x = Some (In_register r size)
  | Unlock x => exists r size k, place_of c x = Some (In_register r size) /\ nth_error L x = Some (Some k) /\ 0 < k
  | Free x => nth_error L x = Some (Some 0)
  | Spill_all => Forall (fun o => locked o = false) L
  end.

Inductive history (stack_space : Z) (n : nat) : list request -> client -> Prop :=
| nothing_yet : history stack_space n [] (start n)
| and_then : forall qs c q c', history stack_space n qs c -> sensible q -> polite (books qs) c q -> serve stack_space q c = Done c' ->
    history stack_space n (qs ++ [q]) c'.
