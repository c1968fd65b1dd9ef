(** What C39 asks for. *)
From Verif Require Import Base ScopeModel TypeEqModel.

(** No erroneous expression is involved. *)
Fixpoint clean (t : ty) : Prop :=
  match t with
  | Poison => False
  | Pointer t | Array t _ | Bitfield t _ _ => clean t
  | Function r a => clean r /\ fold_right (fun t p => clean t /\ p) True a
  | Compound _ _ _ _ ms => fold_right (fun m p => clean (snd (fst m)) /\ p) True ms
  | _ => True
  end.

(** Address comparison: equal addresses have equal contents, predefined types exist once,
    and so does the type found under a name. *)
Definition addresses (same : ty -> ty -> bool) (lookup : name -> option ty) : Prop :=
  (forall a b, same a b = true -> a = b) /\ (forall i, same (Basic i) (Basic i) = true) /\ same Poison Poison = true /\
  (forall n t, lookup n = Some t -> same t t = true).

(** A type found under a name is a struct, union or enum of that name. *)
Definition tables (lookup : name -> option ty) : Prop :=
  forall n t, lookup n = Some t -> clean t /\ match t with Compound _ tag _ _ _ => tag = n | Enum tag => tag = n | _ => False end.

(** When two types are the same type: the same predefined type, or built in the same way from
    the same types; a name stands for the type it is declared with.  Structs and unions need
    the same tag and the same members at the same offsets, enums the same tag. *)
Inductive alike (lookup : name -> option ty) : ty -> ty -> Prop :=
  | alike_basic : forall i, alike lookup (Basic i) (Basic i)
  | alike_name : forall n, alike lookup (Unresolved n) (Unresolved n)
  | alike_left : forall n t b, lookup n = Some t -> alike lookup t b -> alike lookup (Unresolved n) b
  | alike_right : forall n t a, lookup n = Some t -> alike lookup a t -> alike lookup a (Unresolved n)
  | alike_pointer : forall a b, alike lookup a b -> alike lookup (Pointer a) (Pointer b)
  | alike_function : forall r r' l l', alike lookup r r' -> Forall2 (alike lookup) l l' -> alike lookup (Function r l) (Function r' l')
  | alike_array : forall a b n, alike lookup a b -> alike lookup (Array a n) (Array b n)
  | alike_compound : forall u tag s al s' al' ms ms', Forall2 (fun m m' => fst (fst m) = fst (fst m') /\ snd m = snd m' /\ alike lookup (snd (fst m)) (snd (fst m'))) ms ms' ->
      alike lookup (Compound u tag s al ms) (Compound u tag s' al' ms')
  | alike_enum : forall tag, alike lookup (Enum tag) (Enum tag)
  | alike_bitfield : forall a b i w, alike lookup a b -> alike lookup (Bitfield a i w) (Bitfield b i w).

(** Sizes and alignments as the compiler stores them: [basic] for the predefined types. *)
Section Size.
Variable lookup : name -> option ty.
Variable basic : nat -> Z * Z.
Fixpoint layout (t : ty) : Z * Z :=
  match t with
  | Basic i => basic i
  | Poison => (0, 1)
  | Unresolved n => match lookup n with Some (Compound _ _ s a _) => (s, a) | Some (Enum _) => (4, 4) | _ => (0, 1) end
  | Pointer _ => (8, 8)
  | Function _ _ => (0, 1)
  | Array t n => (n * fst (layout t), snd (layout t))
  | Compound _ _ s a _ => (s, a)
  | Enum _ => (4, 4)
  | Bitfield b _ _ => layout b
  end.

(** Every struct in the type has the size and alignment that [rule] derives from the layouts and
    offsets of its members: nothing else (#pragma pack, __declspec(align)) was involved. *)
Variable rule : bool -> list (Z * Z * Z) -> Z * Z.
Fixpoint natural (t : ty) : Prop :=
  match t with
  | Pointer t | Array t _ | Bitfield t _ _ => natural t
  | Function r a => natural r /\ fold_right (fun t p => natural t /\ p) True a
  | Compound u _ s a ms => (s, a) = rule u (map (fun m => (layout (snd (fst m)), snd m)) ms) /\ fold_right (fun m p => natural (snd (fst m)) /\ p) True ms
  | _ => True
  end.
Definition natural_tables : Prop := forall n t, lookup n = Some t -> natural t.
End Size.
