(** The comparison of types (C39): parse.c 911-1051. *)
From Verif Require Import Base ScopeModel.

(** ast.c: the types.  A type is a tree; a struct that points to itself contains
    [Unresolved] with its own name, which is what the parser builds until the pointer is
    used (main.c 1600-1636).  Later patches of such pointers to the registered type are not
    modelled.  Varargs and calling conventions of functions are left out: the comparison does
    not look at them.
    [Basic i]: one of the predefined integer, floating or void types, number [i].
    [Poison]: globals.typedef_poison, the type of an erroneous expression.
    [Compound]: struct ([is_union = false]) or union, its tag, stored size, stored alignment and
    members (name, type, offset). *)
Inductive ty : Type :=
  | Basic (i : nat)
  | Poison
  | Unresolved (n : name)
  | Pointer (t : ty)
  | Function (ret : ty) (args : list ty)
  | Array (t : ty) (amount : Z)
  | Compound (is_union : bool) (tag : name) (size align : Z) (members : list (name * ty * Z))
  | Enum (tag : name)
  | Bitfield (base : ty) (bit_index width : Z).

Section Eq.
(** [wanted == given]: comparison of addresses. *)
Variable same : ty -> ty -> bool.
(** main.c 1600 [lookup_unresolved_type]: the scope's types, then the global table. *)
Variable lookup : name -> option ty.

Definition resolve (t : ty) : option ty := match t with Unresolved n => lookup n | _ => Some t end.
(** parse.c 891 [maybe_resolve_unresolved_type] on a parameter, whose result is not used. *)
Definition resolve_argument (t : ty) : ty := match resolve t with Some t => t | None => t end.

(** parse.c 944-947: skip pointers while both are pointers to pointers; the pointees. *)
Fixpoint strip (w g : ty) : ty * ty :=
  match w, g with
  | Pointer w', Pointer g' => strip w' g'
  | _, _ => (w, g)
  end.

Definition obind_if (a b : outcome bool) : outcome bool := obind a (fun r => if r then b else Done false).

(** parse.c 983-996 *)
Fixpoint arguments_equal (equal : ty -> ty -> outcome bool) (ws gs : list ty) : outcome bool :=
  match ws, gs with
  | w :: ws, g :: gs => obind_if (equal (resolve_argument w) (resolve_argument g)) (arguments_equal equal ws gs)
  | [], [] => Done true
  | _, _ => Crash
  end.
(** parse.c 1021-1028 *)
Fixpoint members_equal (equal : ty -> ty -> outcome bool) (ws gs : list (name * ty * Z)) : outcome bool :=
  match ws, gs with
  | (n, w, o) :: ws, (m, g, p) :: gs =>
      if names_match n m then obind_if (equal w g) (if o =? p then members_equal equal ws gs else Done false) else Done false
  | [], [] => Done true
  | _, _ => Crash
  end.

(** parse.c 967-1050, behind the pointers. *)
Definition equal_behind (equal : ty -> ty -> outcome bool) (wanted given : ty) : outcome bool :=
  if same wanted given then Done true
  else match wanted, given with
  | Function r a, Function r' a' =>
      if Nat.eqb (length a) (length a') then obind_if (equal r r') (arguments_equal equal a a') else Done false
  | Array t n, Array t' n' => if n =? n' then equal t t' else Done false
  | Compound u tag _ _ ms, Compound u' tag' _ _ ms' =>
      if Bool.eqb u u' then
        if names_match tag tag' then
          if Nat.eqb (length ms) (length ms') then members_equal equal ms ms' else Done false
        else Done false
      else Done false
  | Enum tag, Enum tag' => Done (names_match tag tag')
  | Bitfield b i w, Bitfield b' i' w' => if i =? i' then if w =? w' then equal b b' else Done false else Done false
  | _, _ => Done false
  end.

(** parse.c 913-914 *)
Definition is_poison (t : ty) : bool := match t with Poison => true | _ => false end.
(** parse.c 917-925 and 952-960: two unresolved types are compared by name. *)
Definition unresolved_names (w g : ty) : option bool := match w, g with Unresolved n, Unresolved m => Some (names_match n m) | _, _ => None end.
(** parse.c 940-947 *)
Definition pointees (w g : ty) : option (ty * ty) := match w, g with Pointer w, Pointer g => Some (strip w g) | _, _ => None end.

(** parse.c 911-1051 [types_are_equal]: whether the result is not null.  The recursion is
    bounded by [fuel]; running out of it (the C stack) is a crash. *)
Fixpoint types_are_equal (fuel : nat) (wanted given : ty) : outcome bool :=
  match fuel with
  | O => Crash
  | S fuel =>
      if same wanted given then Done true
      else if is_poison wanted then Done true
      else if is_poison given then Done true
      else match unresolved_names wanted given with
      | Some r => Done r
      | None =>
          match resolve wanted, resolve given with
          | Some wanted, Some given =>
              if same wanted given then Done true
              else match pointees wanted given with
              | Some (w, g) =>
                  match unresolved_names w g with
                  | Some r => Done r
                  | None =>
                      match resolve w, resolve g with
                      | Some w, Some g => equal_behind (types_are_equal fuel) w g
                      | _, _ => Done false
                      end
                  end
              | None => equal_behind (types_are_equal fuel) wanted given
              end
          | _, _ => Done false
          end
      end
  end.
End Eq.
