(** What C12 asks for: the layout rules of the Microsoft x64 ABI, as rules of inference. *)
From Verif Require Import Base UtilSpec LayoutModel.

(** The alignment of a declared member: an alignment among its own specifiers, else 1 in a
    packed struct, else that of its type, lowered to the value of #pragma pack unless the type
    itself was declared with an alignment. *)
Inductive aligned_as (packed : bool) (pragma : Z) (it : item) : Z -> Prop :=
  | a_spec : i_spec it <> 0 -> aligned_as packed pragma it (i_spec it)
  | a_packed : i_spec it = 0 -> packed = true -> aligned_as packed pragma it 1
  | a_user : i_spec it = 0 -> packed = false -> i_user it = true -> aligned_as packed pragma it (i_align it)
  | a_pragma : i_spec it = 0 -> packed = false -> i_user it = false -> aligned_as packed pragma it (Z.min (i_align it) pragma).

(** Where a struct-declarator that declares something went: its offset and, for a bit-field,
    the first bit and the width. *)
Record placement : Set := mkplacement { p_item : item; p_offset : Z; p_bits : option (Z * Z) }.

Definition first_bit (p : placement) : Z := 8 * p_offset p + match p_bits p with Some (b, _) => b | None => 0 end.
Definition end_bit (p : placement) : Z := 8 * p_offset p + match p_bits p with Some (b, w) => b + w | None => 8 * i_size (p_item p) end.

(** [next_offset e a o]: [o] is the first multiple of [a] at or behind [e]. *)
Definition next_offset (e a o : Z) : Prop := least (fun x => e <= x /\ (a | x)) o.

Definition fits (unit : option (Z * Z)) (it : item) (w : Z) : Prop := match unit with Some (size, used) => size = i_size it /\ used + w <= 8 * size | None => False end.

Section Rules.
Variables (packed : bool) (pragma : Z).
(** [laid e unit items ps e']: behind the first [e] bytes, in which the bit-field unit [unit]
    (its size and the bits used) is still open at the end, the items go to [ps], and the last
    of them ends at byte [e']. *)
Inductive laid : Z -> option (Z * Z) -> list item -> list placement -> Z -> Prop :=
  | l_nil : forall e u, laid e u [] [] e
  (* an ordinary member goes to the next aligned offset *)
  | l_member : forall e u it items a o ps e', i_width it = None -> aligned_as packed pragma it a -> next_offset e a o ->
      laid (o + i_size it) None items ps e' -> laid e u (it :: items) (mkplacement it o None :: ps) e'
  (* a bit-field that fits the open unit goes behind the bits used *)
  | l_share : forall e size used it items w n ps e', i_width it = Some w -> i_name it = Some n -> 0 < w -> fits (Some (size, used)) it w ->
      laid e (Some (size, used + w)) items ps e' -> laid e (Some (size, used)) (it :: items) (mkplacement it (e - size) (Some (used, w)) :: ps) e'
  | l_skip : forall e size used it items w ps e', i_width it = Some w -> i_name it = None -> 0 < w -> fits (Some (size, used)) it w ->
      laid e (Some (size, used + w)) items ps e' -> laid e (Some (size, used)) (it :: items) ps e'
  (* one that does not opens a unit *)
  | l_open : forall e u it items w n a o ps e', i_width it = Some w -> i_name it = Some n -> 0 < w <= 8 * i_size it -> ~ fits u it w -> aligned_as packed pragma it a -> next_offset e a o ->
      laid (o + i_size it) (Some (i_size it, w)) items ps e' -> laid e u (it :: items) (mkplacement it o (Some (0, w)) :: ps) e'
  | l_open_unnamed : forall e u it items w a o ps e', i_width it = Some w -> i_name it = None -> 0 < w <= 8 * i_size it -> ~ fits u it w -> aligned_as packed pragma it a -> next_offset e a o ->
      laid (o + i_size it) (Some (i_size it, w)) items ps e' -> laid e u (it :: items) ps e'
  (* a bit-field of width 0 closes it *)
  | l_zero : forall e u it items ps e', i_width it = Some 0 -> i_name it = None -> laid e None items ps e' -> laid e u (it :: items) ps e'.
End Rules.

(** The members a placement contributes: itself and, if it is an unnamed struct or union, the
    members of that, moved. *)
Definition shift (o : Z) (m : member) : option nat * Z * option (Z * Z) * Z := (m_name m, m_size m, m_bits m, o + m_offset m).
Definition contributes (p : placement) : list (option nat * Z * option (Z * Z) * Z) :=
  (i_name (p_item p), i_size (p_item p), p_bits p, p_offset p) ::
  match i_name (p_item p), i_nested (p_item p) with None, Some (_, ms) => map (shift (p_offset p)) ms | _, _ => [] end.

(** What the declarator parser can hand over. *)
Definition power_of_two_or_none (a : Z) : Prop := a = 0 \/ power_of_two a.
Definition proper (it : item) : Prop :=
  0 <= i_size it /\ power_of_two (i_align it) /\ power_of_two_or_none (i_spec it).

(** No unnamed bit-field opens a unit. *)
Fixpoint unnamed_fit (unit : option (Z * Z)) (items : list item) : Prop :=
  match items with
  | [] => True
  | it :: items =>
      match i_width it with
      | None => unnamed_fit None items
      | Some w => if w =? 0 then unnamed_fit None items else
          match unit with
          | Some (size, used) => if (size =? i_size it) && (used + w <=? 8 * size) then unnamed_fit (Some (size, used + w)) items else i_name it <> None /\ unnamed_fit (Some (i_size it, w)) items
          | None => i_name it <> None /\ unnamed_fit (Some (i_size it, w)) items
          end
      end
  end.

(** The space the items could need at most. *)
Definition need (it : item) : Z := i_size it + i_align it + i_spec it.
Definition needs (items : list item) : Z := fold_right Z.add 0 (map need items).

(** [strictest]: the alignment of the whole. *)
Definition strictest (packed : bool) (pragma declspec : Z) (ps : list placement) (a : Z) : Prop :=
  declspec <= a /\ (forall p b, In p ps -> aligned_as packed pragma (p_item p) b -> b <= a) /\
  (a = declspec \/ exists p, In p ps /\ aligned_as packed pragma (p_item p) a).

Definition strip (m : member) : option nat * Z * option (Z * Z) * Z := (m_name m, m_size m, m_bits m, m_offset m).

(** Declarations without an error: a bit-field has an integer type and a width that fits it,
    and 0 only without a name; anything else without a name is a struct or union. *)
Definition valid (it : item) : Prop :=
  match i_width it with
  | None => i_name it <> None \/ i_nested it <> None
  | Some w => i_integer it = true /\ 0 <= w <= 8 * i_size it /\ (w = 0 -> i_name it = None)
  end.
Definition name_list (n : option nat) : list nat := match n with Some n => [n] | None => [] end.
Definition names_of (it : item) : list nat :=
  match i_name it, i_width it, i_nested it with
  | Some n, _, _ => [n]
  | None, None, Some (_, ms) => flat_map (fun m => name_list (m_name m)) ms
  | _, _, _ => []
  end.

(** The types a bit-field can have: integers, as aligned as they are large. *)
Definition plain_bits (it : item) : Prop := i_width it <> None -> i_spec it = 0 /\ i_user it = false /\ i_align it = i_size it.
