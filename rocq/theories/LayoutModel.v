(** The layout of structs and unions (C12): parse.c 7947-8257.

    The parser of declarators is not modelled: an [item] is what it yields for one
    struct-declarator.  Errors in the declaration (and the sleeping on unresolved types) end in
    [Reported]; the code reports them and goes on to look for more errors. *)
From Verif Require Import Base UtilModel.

(** parse.c, [struct compound_member]: of the type only what matters here, the size and for a
    bit-field the bit index and width. *)
Record member : Set := mkmember {
  m_name : option nat; m_size : Z; m_bits : option (Z * Z); m_offset : Z; m_increment : Z }.

(** One struct-declarator with the specifiers before it (parse.c 7980-8053): name, size and
    alignment of the type, whether the type is user aligned, the alignment among the specifiers
    (0 if none), the width after a colon, whether the type is an integer type, and for a struct
    or union type whether it is a union and its members. *)
Record item : Set := mkitem {
  i_name : option nat; i_size : Z; i_align : Z; i_user : bool; i_spec : Z;
  i_width : option Z; i_integer : bool; i_nested : option (bool * list member) }.

(** parse.c 7947-7951: the variables of the loop. *)
Record layout : Set := mklayout {
  l_size : Z; l_align : Z; l_unit : option Z; l_index : Z; l_members : list member }.

Definition set_unit (s : layout) (u : option Z) (i : Z) : layout := mklayout (l_size s) (l_align s) u i (l_members s).

Section Layout.
(** [is_union]; [__declspec(packed)]; [context->pragma_alignment]. *)
Variables (is_union is_packed : bool) (pragma : Z).

(** parse.c 8142-8150 *)
Definition decl_alignment (it : item) : Z :=
  if negb (i_spec it =? 0) then i_spec it
  else if is_packed then 1
  else if negb (i_user it) && (pragma <? i_align it) then pragma
  else i_align it.

(** parse.c 8181, 8199 [find_member_in_compound] *)
Definition has_member (n : nat) (l : list member) : bool := existsb (fun m => match m_name m with Some k => Nat.eqb k n | None => false end) l.

(** parse.c 8195-8207 *)
Fixpoint register_nested (nested_union : bool) (offset : Z) (nested l : list member) : outcome (list member) :=
  match nested with
  | [] => Done l
  | m :: nested' =>
      if match m_name m with Some n => has_member n l | None => false end then Reported
      else register_nested nested_union offset nested' (l ++ [mkmember (m_name m) (m_size m) (m_bits m) (offset + m_offset m) (if nested_union then Z.of_nat (length nested) else 1)])
  end.

(** parse.c 8177-8209 *)
Definition register (it : item) (bits : option (Z * Z)) (offset : Z) (l : list member) : outcome (list member) :=
  match i_name it with
  | Some n => if has_member n l then Reported else Done (l ++ [mkmember (Some n) (i_size it) bits offset 1])
  | None =>
      match i_nested it with
      | None => Reported
      | Some (u, ms) => register_nested u offset ms (l ++ [mkmember None (i_size it) bits offset (Z.of_nat (length ms) + 1)])
      end
  end.

(** parse.c 8152-8175: the offset and the new size.  Signed overflow is [Crash]. *)
Definition offset_for (s : layout) (it : item) (shares : bool) : outcome (Z * Z) :=
  if shares then
    match rev (l_members s) with
    | m :: _ => match m_bits m with Some _ => Done (m_offset m, l_size s) | None => Crash end
    | [] => Crash
    end
  else if is_union then Done (0, Z.max (i_size it) (l_size s))
  else
    obind (align_up (l_size s) (decl_alignment it)) (fun o =>
    let o := wraps 64 o in
    if o + i_size it <? 2 ^ 63 then Done (o, o + i_size it) else Crash).

Definition place (s : layout) (it : item) (bits : option (Z * Z)) (shares : bool) : outcome layout :=
  obind (offset_for s it shares) (fun '(offset, size) =>
  obind (register it bits offset (l_members s)) (fun ms =>
  Done (mklayout size (Z.max (decl_alignment it) (l_align s)) (l_unit s) (l_index s) ms))).

(** parse.c 8045-8175: one struct-declarator. *)
Definition declare (s : layout) (it : item) : outcome layout :=
  match i_width it with
  | None => place (set_unit s None 0) it None false
  | Some width =>
      if negb (i_integer it) || (width <? 0) then Reported
      else if width =? 0 then
        match i_name it with Some _ => Reported | None => Done (set_unit s None 0) end
      else if i_size it * 8 <? width then Reported
      else
        let fits := match l_unit s with Some u => (u =? i_size it) && (l_index s + width <=? i_size it * 8) | None => false end in
        let base := if fits then l_index s else 0 in
        let s' := if fits then set_unit s (l_unit s) (l_index s + width) else set_unit s (Some (i_size it)) width in
        match i_name it with
        | None => Done s'
        | Some _ => place s' it (Some (base, width)) (fits && negb (match l_members s with [] => true | _ => false end))
        end
  end.

Fixpoint declare_all (s : layout) (items : list item) : outcome layout :=
  match items with
  | [] => Done s
  | it :: items => obind (declare s it) (fun s => declare_all s items)
  end.

(** parse.c 7947-8252: size, alignment and members of the type. *)
Definition compound (declspec : Z) (items : list item) : outcome (Z * Z * list member) :=
  obind (declare_all (mklayout 0 declspec None 0 []) items) (fun s =>
  if negb (0 <=? l_size s) || negb (is_power_of_two (l_align s)) then Crash
  else Done (align_with_mask (l_size s) (l_align s), l_align s, l_members s)).
End Layout.
