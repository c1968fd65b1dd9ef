(** What C33 means: an initialiser as a sequence of assignments, and the bits they leave in the object. *)
From Coq Require Import List ZArith Lia Bool.
From Verif Require Import Base InitModel.
Import ListNotations.
Open Scope Z_scope.

(** The bits of an object, numbered from 0. *)
Definition memory : Type := Z -> bool.
(** Bits [from], ... [from + width - 1] become the lowest bits of [v], the others stay. *)
Definition assign (from width v : Z) (m : memory) : memory := fun b => if (from <=? b) && (b <? from + width) then Z.testbit v (b - from) else m b.
(** The bytes from number [at_] on become [bytes]. *)
Definition assign_bytes (at_ : Z) (bytes : list Z) (m : memory) : memory :=
  fun b => if (8 * at_ <=? b) && (b <? 8 * (at_ + Z.of_nat (length bytes))) then Z.testbit (nth (Z.to_nat (b / 8 - at_)) bytes 0) (b mod 8) else m b.

(** Constant expressions: numbers, floating numbers by their bits, and addresses of variables, string literals, compound literals, and parts of them. *)
Inductive lvalue : Set := Variable_ (d : nat) | Text (s : nat) (bytes : list Z) (type_size : Z) | Unnamed (d : nat) (body : list op) | Field (l : lvalue) (offset : Z) | Element (l : lvalue) (index size : Z).
Inductive expr : Set :=
  | Number (v : Z) | Floating (v : Z) | Pointer_constant (v : Z) | Address (l : lvalue) | Plus (a b : expr) | Minus (a b : expr)
  | Plus_array (l : lvalue) (b : expr) | Minus_array (l : lvalue) (b : expr) (* the operand on the left is an array *).
(** An initialiser sets places, arrays of characters, and members that are given by compound literals. *)
Inductive item : Set :=
  | Put (offset : Z) (p : place) (e : expr)
  | Put_string (offset : Z) (p : place) (s : nat) (bytes : list Z) (type_size : Z)
  | Put_file (offset : Z) (p : place) (bytes : list Z)
  | Put_members (offset : Z) (p : place) (d : nat) (members : list item).

(** ** Their meaning *)
Section Meaning.
Variable address : symbol -> Z.
Fixpoint thing (l : lvalue) : symbol := match l with Variable_ d => Object d | Text s _ _ => Literal s | Unnamed d _ => Object d | Field l _ => thing l | Element l _ _ => thing l end.
Fixpoint distance (l : lvalue) : Z := match l with Field l o => distance l + o | Element l i n => distance l + i * n | _ => 0 end.
Definition location (l : lvalue) : Z := address (thing l) + distance l.
Fixpoint value (e : expr) : Z :=
  match e with
  | Number v => v | Floating v => v | Pointer_constant v => v | Address l => location l
  | Plus a b => value a + value b | Minus a b => value a - value b
  | Plus_array l b => location l + value b | Minus_array l b => location l - value b
  end.
(** A character array takes the whole string and is zero behind it. *)
Definition array_bytes (p : place) (type_size : Z) : Z := match p with Array e n => e * n | _ => type_size end.
Definition padded (bytes : list Z) (n : Z) : list Z := bytes ++ repeat 0 (Z.to_nat n - length bytes).
Fixpoint meaning (root : Z) (i : item) (m : memory) : memory :=
  match i with
  | Put o (Bits _ index width) e => assign (8 * (root + o) + index) width (value e) m
  | Put o p e => assign (8 * (root + o)) (8 * place_size p) (value e) m
  | Put_string o p _ bytes n => assign_bytes (root + o) (padded bytes (array_bytes p n)) m
  | Put_file o _ bytes => assign_bytes (root + o) bytes m
  | Put_members o _ _ l => fold_left (fun m j => meaning (root + o) j m) l m
  end.
(** The object: zero, then all assignments in order. *)
Definition object (l : list item) : memory := fold_left (fun m i => meaning 0 i m) l (fun _ => false).
End Meaning.

(** ** How they are written in the intermediate code (parse.c 2107-2113, 2420-2610, 6090-6100) *)
Fixpoint lvalue_ops (l : lvalue) : list op :=
  match l with
  | Variable_ d => [Identifier d true] | Text s b n => [String_literal s b n] | Unnamed d body => [Compound_literal d body]
  | Field l o => lvalue_ops l ++ [Member o] | Element l i n => lvalue_ops l ++ [Integer_literal i; Subscript n]
  end.
Fixpoint expr_ops (e : expr) : list op :=
  match e with
  | Number v => [Integer_literal v] | Floating v => [Float_literal v] | Pointer_constant v => [Pointer_literal v]
  | Address l => lvalue_ops l ++ [Load_address]
  | Plus a b => expr_ops a ++ expr_ops b ++ [Add] | Minus a b => expr_ops a ++ expr_ops b ++ [Subtract]
  | Plus_array l b => lvalue_ops l ++ expr_ops b ++ [Load_address_lhs; Add] | Minus_array l b => lvalue_ops l ++ expr_ops b ++ [Load_address_lhs; Subtract]
  end.
Fixpoint item_ops (i : item) : list op :=
  match i with
  | Put o p e => expr_ops e ++ [Initializer o p]
  | Put_string o p s bytes n => [String_literal s bytes n; Initializer o p]
  | Put_file o p bytes => [Embed bytes; Initializer o p]
  | Put_members o p d l => [Compound_literal d (flat_map item_ops l); Initializer o p]
  end.

(** ** Proper initialisers *)
(** The thing an address refers to. *)
Fixpoint refers (e : expr) : option symbol :=
  match e with
  | Address l => Some (thing l)
  | Plus a b => match refers a with Some t => Some t | None => refers b end
  | Minus a b => match refers b with Some _ => None | None => refers a end
  | Plus_array l _ => Some (thing l)
  | Minus_array l b => match refers b with Some _ => None | None => Some (thing l) end
  | _ => None
  end.
(** Address constants: no sum of two addresses, differences only within one thing. *)
Fixpoint constant (e : expr) : Prop :=
  match e with
  | Number _ => True | Pointer_constant _ => True | Address _ => True | Floating _ => False
  | Plus a b => constant a /\ constant b /\ (refers a = None \/ refers b = None)
  | Minus a b => constant a /\ constant b /\ (refers b = None \/ refers b = refers a)
  | Plus_array l b => constant b /\ refers b = None
  | Minus_array l b => constant b /\ (refers b = None \/ refers b = Some (thing l))
  end.
(** The offset from the thing. *)
Fixpoint displacement (e : expr) : Z :=
  match e with
  | Number v => v | Floating v => v | Pointer_constant v => v | Address l => distance l
  | Plus a b => displacement a + displacement b | Minus a b => displacement a - displacement b
  | Plus_array l b => distance l + displacement b | Minus_array l b => distance l - displacement b
  end.
(** The value suits the place: addresses are stored in eight bytes and those of string literals have no offset; numbers fit into bit-fields. *)
Definition suits (p : place) (e : expr) : Prop :=
  match e with
  | Number v => match p with Bits n i w => 0 < w < 64 /\ 0 <= i /\ i + w <= 8 * n /\ n <= 8 /\ 0 <= v < 2 ^ w | Integer n => 0 <= n <= 8 | Pointer => True | _ => False end
  | Floating v => match p with Real n => 0 <= n <= 8 | _ => False end
  | _ => constant e /\ match refers e with
         | Some t => (p = Pointer \/ p = Integer 8) /\ match t with Object _ => True | Literal _ => displacement e = 0 end
         | None => match p with Integer n => 0 <= n <= 8 | Pointer => True | _ => False end
         end
  end.
Definition is_byte (b : Z) : Prop := 0 <= b < 256.
Fixpoint proper (size root : Z) (i : item) : Prop :=
  match i with
  | Put o p e => 0 <= root + o /\ root + o + place_size p <= size /\ suits p e
  | Put_string o p _ bytes n =>
      0 <= root + o /\ root + o + array_bytes p n <= size /\ Z.of_nat (length bytes) <= array_bytes p n /\ Forall is_byte bytes
      /\ match p with Array e _ => 0 <= e | Flexible e => 0 <= e | _ => False end
  | Put_file o p bytes => 0 <= root + o /\ root + o + place_size p <= size /\ root + o + Z.of_nat (length bytes) <= size /\ Forall is_byte bytes
  | Put_members o p _ l => 0 <= root + o /\ root + o + place_size p <= size /\ fold_right (fun j P => proper size (root + o) j /\ P) True l
  end.

(** ** Places that are initialised more than once *)
Inductive kind : Set := Of_address | Of_string | Of_value.
Definition kind_of (e : expr) : kind := match refers e with Some _ => Of_address | None => Of_value end.
(** First byte, bytes, and kind of what is set, in order. *)
Fixpoint sets (root : Z) (i : item) : list (Z * Z * kind) :=
  match i with
  | Put o p e => [(root + o, place_size p, kind_of e)]
  | Put_string o p _ _ n => [(root + o, array_bytes p n, Of_string)]
  | Put_file o _ bytes => [(root + o, Z.of_nat (length bytes), Of_value)]
  | Put_members o _ _ l => flat_map (sets (root + o)) l
  end.
(** An address is not overwritten by anything but addresses, and a string overwrites nothing. *)
Definition apart (a b : Z * Z * kind) : Prop :=
  let '(at1, n1, k1) := a in let '(at2, n2, k2) := b in
  (k1 = Of_address /\ k2 <> Of_address) \/ k2 = Of_string -> at1 + n1 <= at2 \/ at2 + n2 <= at1.
Definition calm (l : list item) : Prop := ForallOrdPairs apart (flat_map (sets 0) l).

(** Bit [b] of a sequence of bytes. *)
Definition bit_of (d : list Z) (b : Z) : bool := Z.testbit (nth (Z.to_nat (b / 8)) d 0) (b mod 8).

(** ** Arbitrary intermediate code *)
(** Any nodes whatsoever, but offsets and sizes are not negative and no place is a flexible array. *)
Fixpoint sane (o : op) : Prop :=
  match o with
  | Initializer off p => 0 <= off /\ 0 <= place_size p /\ match p with Flexible _ => False | _ => True end
  | Compound_literal _ body => fold_right (fun o P => sane o /\ P) True body
  | _ => True
  end.
Definition all_sane (l : list op) : Prop := fold_right (fun o P => sane o /\ P) True l.
