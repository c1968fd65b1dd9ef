(** Local scopes: the hash table of declarations each scope keeps, and lookup through the
    chain of scopes. *)
From Verif Require Import Base.

(** ast.c 308, 341: names are byte strings.  [atoms_match] compares the hashes and the
    strings; the hash is a function of the string (a parameter below), so two atoms match
    iff the strings are equal. *)
Definition name := list Z.
Definition name_eq : forall a b : name, {a = b} + {a <> b} := list_eq_dec Z.eq_dec.
Definition names_match (a b : name) : bool := if name_eq a b then true else false.

(** ast.c struct ast_declaration: its identifier; [d_serial] stands for the rest of the
    declaration and its address. *)
Record decl : Set := mkdecl { d_name : name; d_serial : nat }.

(** An element of [scope->declarations]: null, the tombstone [(void * )1] or a pointer. *)
Inductive entry : Set := Empty | Tomb | Entry (d : decl).

(** ast.c 646 struct ast_scope: the fields lookup uses.  The array is a function of the
    index; [parent] is the rest of the list of scopes. *)
Record scope : Type := mkscope { is_function_scope : bool; declarations : Z -> entry; amount : Z; capacity : Z }.
Definition put_at (t : Z -> entry) (i : Z) (e : entry) : Z -> entry := fun j => if j =? i then e else t j.

Section Scopes.
Variable string_hash : name -> Z.

(** The indices a probing loop visits:
    [for(i = 0; i < max; i++){ index = (i + hash) & (max - 1); ...}].
    The hash is any integer: [& (max - 1)] with [max] a power of two does not see that the
    code converts a u64 to s64. *)
Definition indices (max hash : Z) : list Z :=
  map (fun i => Z.land (Z.of_nat i + hash) (max - 1)) (seq 0 (Z.to_nat max)).

(** main.c 1569-1581: the inner loop of [lookup_declaration]. *)
Fixpoint lookup_in (t : Z -> entry) (is : list Z) (ident : name) : outcome (option decl) :=
  match is with
  | [] => Done None
  | index :: is =>
      match t index with
      | Empty => Done None
      | Tomb => Crash
      | Entry d => if names_match ident (d_name d) then Done (Some d) else lookup_in t is ident
      end
  end.

(** main.c 1563-1595 [lookup_declaration]; [global] is the lookup in the table of the
    compilation unit at the end of it. *)
Fixpoint lookup_declaration (global : name -> option decl) (scopes : list scope) (ident : name) : outcome (option decl) :=
  match scopes with
  | [] => Done (global ident)
  | s :: parents =>
      obind (lookup_in (declarations s) (indices (capacity s) (string_hash ident)) ident) (fun r =>
        match r with
        | Some d => Done (Some d)
        | None => if is_function_scope s then Done (global ident) else lookup_declaration global parents ident
        end)
  end.

(** main.c 1761-1768: insert [d] at the first free slot of the new table. *)
Fixpoint insert_new (t : Z -> entry) (is : list Z) (d : decl) : Z -> entry :=
  match is with
  | [] => t
  | index :: is => match t index with Empty => put_at t index (Entry d) | _ => insert_new t is d end
  end.

(** main.c 1746-1771: move every declaration with hash [hash] on the chain. *)
Fixpoint move_chain (old new : Z -> entry) (is : list Z) (new_max hash : Z) : (Z -> entry) * (Z -> entry) :=
  match is with
  | [] => (old, new)
  | index :: is =>
      match old index with
      | Empty => (old, new)
      | Tomb => move_chain old new is new_max hash
      | Entry d =>
          if string_hash (d_name d) =? hash
          then move_chain (put_at old index Tomb) (insert_new new (indices new_max hash) d) is new_max hash
          else move_chain old new is new_max hash
      end
  end.

(** main.c 1739-1772: the loop over the old table. *)
Fixpoint move_all (old new : Z -> entry) (old_indices : list Z) (old_max new_max : Z) : (Z -> entry) * (Z -> entry) :=
  match old_indices with
  | [] => (old, new)
  | old_index :: rest =>
      match old old_index with
      | Entry d =>
          let '(old, new) := move_chain old new (indices old_max (string_hash (d_name d))) new_max (string_hash (d_name d)) in
          move_all old new rest old_max new_max
      | _ => move_all old new rest old_max new_max
      end
  end.

Definition grow (s : scope) : scope :=
  let new_max := Z.max (2 * capacity s) 8 in
  let '(_, new) := move_all (declarations s) (fun _ => Empty) (map Z.of_nat (seq 0 (Z.to_nat (capacity s)))) (capacity s) new_max in
  mkscope (is_function_scope s) new (amount s) new_max.

(** main.c 1780-1805: place the declaration; a declaration of the same name makes room and
    is placed further on.  The result says whether the warning was given. *)
Fixpoint place (t : Z -> entry) (is : list Z) (d : decl) (warned : bool) : outcome ((Z -> entry) * bool) :=
  match is with
  | [] => Done (t, warned)
  | index :: is =>
      match t index with
      | Empty => Done (put_at t index (Entry d), warned)
      | Tomb => Crash
      | Entry redecl =>
          if names_match (d_name d) (d_name redecl)
          then place (put_at t index (Entry d)) is redecl true
          else place t is d warned
      end
  end.

(** main.c 1726-1806 [parser_register_declaration_in_scope].  Simplification: [amount] is
    not reduced modulo 2^32. *)
Definition register_in_scope (s : scope) (d : decl) : outcome (scope * bool) :=
  let s := if 2 * amount s =? capacity s then grow s else s in
  obind (place (declarations s) (indices (capacity s) (string_hash (d_name d))) d false) (fun '(t, warned) =>
    Done (mkscope (is_function_scope s) t (amount s + 1) (capacity s), warned)).

(** parse.c 818-846 [parser_push_new_scope], [parser_scope_pop], and main.c 1805
    [register_declaration] inside a function (its global branch is not modelled). *)
Inductive event : Set :=
| Enter (function_scope : bool)
| Leave
| Declare (d : decl).
Definition step (scopes : list scope) (e : event) : outcome (list scope * bool) :=
  match e, scopes with
  | Enter f, _ => Done (mkscope f (fun _ => Empty) 0 0 :: scopes, false)
  | Leave, _ :: parents => Done (parents, false)
  | Declare d, s :: parents => obind (register_in_scope s d) (fun '(s, w) => Done (s :: parents, w))
  | _, [] => Crash
  end.
(** The scopes after a history, and for each event whether it warned. *)
Fixpoint run (scopes : list scope) (es : list event) : outcome (list scope * list bool) :=
  match es with
  | [] => Done (scopes, [])
  | e :: es => obind (step scopes e) (fun '(scopes, w) => obind (run scopes es) (fun '(scopes, ws) => Done (scopes, w :: ws)))
  end.
End Scopes.
