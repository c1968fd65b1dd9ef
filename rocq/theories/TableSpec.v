(** What C20 asks for: the table is an atomic map.  A call takes effect at one moment between
    the call and its return. *)
From Verif Require Import Base ScopeModel TableModel.

Inductive status : Set := Ready | Pending (o : op) | Ended (o : op) (result : option Z).
Record atomic : Type := mkatomic { contents : name -> option Z; client : nat -> status }.
Definition set_client (a : atomic) (t : nat) (x : status) : atomic := mkatomic (contents a) (fun u => if Nat.eqb u t then x else client a u).

(** The effect of an operation on the map, and its result: [Add] returns the declaration that
    was there before, if any, and adds its own otherwise. *)
Definition effect (m : name -> option Z) (o : op) : (name -> option Z) * option Z :=
  match o with
  | Get n => (m, m n)
  | Add n a => match m n with
               | Some b => (m, Some b)
               | None => (fun k => if names_match k n then Some a else m k, None)
               end
  end.

(** Histories of calls and returns of the atomic map. *)
Inductive history : atomic -> list event -> atomic -> Prop :=
  | h_end : forall a, history a [] a
  | h_call : forall a t o es b, client a t = Ready -> history (set_client a t (Pending o)) es b -> history a (Call t o :: es) b
  | h_effect : forall a t o es b, client a t = Pending o ->
      history (set_client (mkatomic (fst (effect (contents a) o)) (client a)) t (Ended o (snd (effect (contents a) o)))) es b -> history a es b
  | h_return : forall a t o r es b, client a t = Ended o r -> history (set_client a t Ready) es b -> history a (Return t o r :: es) b.

Definition empty_map : atomic := mkatomic (fun _ => None) (fun _ => Ready).

(** A thread is growing the table or about to. *)
Definition growing (s : state) : Prop := exists t, match threads s t with
  | Lock _ _ | Recheck _ _ | Drain _ _ | Double _ _ | Fresh _ _ _ _ | Mask _ _ _ _ | Move _ _ _ _ _ | Free _ _ _ | Unlock _ _ => True
  | _ => False end.

Definition power_of_two (c : Z) : Prop := exists k, 0 <= k /\ c = 2 ^ k.

(** How many declarations the table holds. *)
Definition registered (s : state) : Z :=
  match memory s (nodes s) with
  | Some b => Z.of_nat (length (filter (fun i => match b_cell b (Z.of_nat i) with Some _ => true | None => false end) (seq 0 (Z.to_nat (b_size b)))))
  | None => 0
  end.

(** The declaration an operation reports as registered: its own if it added it. *)
Definition reported (o : op) (r : option Z) : option Z :=
  match r, o with Some x, _ => Some x | None, Add _ x => Some x | None, Get _ => None end.
