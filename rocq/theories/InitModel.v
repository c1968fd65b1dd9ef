(** Objects with static storage: the evaluation of their initialisers and the patching of addresses into them
    (main.c 2202-2625, coff_writer.c 1645-1724). *)
From Coq Require Import List ZArith Lia Bool.
From Verif Require Import Base.
Import ListNotations.
Open Scope Z_scope.

(** What a function leaves: a value, an error message, a failed assertion, a write outside of the object, or a read outside of the stack or of a value
    (more than eight bytes of it). *)
Inductive result (A : Type) : Type := Done (a : A) | Reported | Assertion | Outside | Underflow.
Arguments Done {A}. Arguments Reported {A}. Arguments Assertion {A}. Arguments Outside {A}. Arguments Underflow {A}.
Definition bind {A B : Type} (r : result A) (f : A -> result B) : result B := match r with Done a => f a | Reported => Reported | Assertion => Assertion | Outside => Outside | Underflow => Underflow end.

(** What a patch can refer to: a declaration or a string literal (struct patch_node, main.c 925-947). *)
Inductive symbol : Set := Object (d : nat) | Literal (s : nat).

(** The types of initialised places as far as they matter (struct ast_type): sizes in bytes; arrays have elements of [element] bytes. *)
Inductive place : Set := Integer (size : Z) | Real (size : Z) | Pointer | Bits (size index width : Z) | Array (element amount : Z) | Flexible (element : Z) | Compound_type (size : Z).
Definition place_size (p : place) : Z :=
  match p with Integer n => n | Real n => n | Pointer => 8 | Bits n _ _ => n | Array e n => e * n | Flexible _ => 0 | Compound_type n => n end.

(** The nodes of the intermediate code (ir.h) that initialisers consist of.  Integer literals are given by the bits integer_literal_to_bytes returns,
    strings by their bytes and the size of their type; [Unknown] is every other node.  Thread-local and imported variables are not modelled, and
    offsets do not overflow. *)
Inductive op : Set :=
  | Integer_literal (v : Z) | Float_literal (v : Z) | String_literal (s : nat) (bytes : list Z) (type_size : Z) | Pointer_literal (v : Z)
  | Identifier (d : nat) (static : bool) | Compound_literal (d : nat) (body : list op) | Embed (bytes : list Z)
  | Member (offset : Z) | Load_address | Load_address_lhs | Subscript (size : Z) | Add | Subtract
  | Initializer (offset : Z) (p : place) | Pop | Unknown.

(** struct evaluate_static_initializer_ir_stack_node (main.c 2226-2230). *)
Inductive node : Set := Int (v : Z) | Float (v : Z) | String (s : nat) (bytes : list Z) (type_size : Z) | Ptr (v : Z) | Decl (d : nat) | File (bytes : list Z) | Null.
Record entry : Set := { what : node; offset : Z; is_address : bool }.
Definition plain (n : node) : entry := {| what := n; offset := 0; is_address := false |}.
(** The object, and the patches in the order they were emitted: where, of what, and which offset from it. *)
Record state : Set := { data : list Z; patches : list (Z * symbol * Z) }.

(** memcpy into the object. *)
Fixpoint little_endian (n : nat) (v : Z) : list Z := match n with O => [] | S n => v mod 256 :: little_endian n (v / 256) end.
Definition copy (at_ : Z) (bytes : list Z) (d : list Z) : list Z := firstn (Z.to_nat at_) d ++ bytes ++ skipn (Z.to_nat at_ + length bytes) d.
Definition write (at_ : Z) (bytes : list Z) (s : state) : result state :=
  if (0 <=? at_) && (at_ + Z.of_nat (length bytes) <=? Z.of_nat (length (data s))) then Done {| data := copy at_ bytes (data s); patches := patches s |} else Outside.
Definition write_value (at_ size v : Z) (s : state) : result state := if size <=? 8 then write at_ (little_endian (Z.to_nat size) v) s else Underflow.
(** memcpy(&old_value, data + offset, size) *)
Fixpoint number (l : list Z) : Z := match l with [] => 0 | b :: l => b + 256 * number l end.
Definition read (at_ size : Z) (s : state) : Z := number (firstn (Z.to_nat size) (skipn (Z.to_nat at_) (data s))).

(** emit_patch (main.c 949-967). *)
Definition emit_patch (at_ : Z) (to : symbol) (off : Z) (s : state) : result state :=
  if at_ + 8 <=? Z.of_nat (length (data s)) then Done {| data := data s; patches := patches s ++ [(at_, to, off)] |} else Assertion.

(** The referenced thing of an address; [None] is the null pointer of main.c 2444.  Addresses of anything else do not occur: the patch would fail
    assertions later on. *)
Definition target (n : node) : result (option symbol) := match n with Decl d => Done (Some (Object d)) | String s _ _ => Done (Some (Literal s)) | Null => Done None | _ => Assertion end.

(** IR_initializer (main.c 2456-2568). *)
Definition initialize (at_ : Z) (p : place) (e : entry) (s : state) : result state :=
  if negb (at_ + place_size p <=? Z.of_nat (length (data s))) then Assertion
  else if is_address e then
    bind (target (what e)) (fun t => match t with None => write_value at_ (place_size p) (wrapu 64 (offset e)) s | Some t => emit_patch at_ t (offset e) s end)
  else match what e with
  | Int v =>
      match p with
      | Bits size index width =>
          let value := wrapu 64 (v * 2 ^ index) in
          (* the count of a 64 bit shift is taken modulo 64 *)
          let mask := wrapu 64 (Z.lnot (wrapu 64 ((2 ^ (width mod 64) - 1) * 2 ^ index))) in
          write_value at_ size (Z.lor (Z.land mask (read at_ size s)) value) s
      | Integer size => write_value at_ size v s
      | Pointer => write_value at_ 8 v s
      | _ => Assertion
      end
  | Ptr v => write_value at_ (place_size p) v s
  | Float v => write_value at_ (place_size p) v s
  | String _ bytes type_size =>
      let string element array_size :=
        let n := Z.of_nat (length bytes) in
        if negb (at_ + n <=? Z.of_nat (length (data s))) then Assertion
        else if negb (n <=? array_size) then Assertion
        else bind (write at_ bytes s) (fun s1 => if at_ + n + element <=? array_size then write (at_ + n) (repeat 0 (Z.to_nat element)) s1 else Done s1) in
      match p with
      | Array element amount => string element (element * amount)
      | Flexible element => string element type_size
      | _ => Reported
      end
  | File bytes => if at_ + Z.of_nat (length bytes) <=? Z.of_nat (length (data s)) then write at_ bytes s else Assertion
  | Decl _ => Reported
  | Null => Assertion
  end.

(** One side of an addition (main.c 2408-2437). *)
Definition operand (e : entry) : result (option symbol * Z) :=
  if is_address e then bind (target (what e)) (fun t => Done (t, offset e))
  else match what e with Ptr v => Done (None, v) | Int v => Done (None, v) | _ => Reported end.
Definition symbol_eqb (a b : symbol) : bool := match a, b with Object x, Object y => Nat.eqb x y | Literal x, Literal y => Nat.eqb x y | _, _ => false end.
Definition node_of (t : symbol) : node := match t with Object d => Decl d | Literal s => String s [] 0 end.
(** IR_add_u64, IR_subtract_u64 (main.c 2398-2455); of a referenced string only the identity matters afterwards. *)
Definition combine (minus : bool) (l r : entry) : result entry :=
  bind (operand l) (fun '(pl, ol) => bind (operand r) (fun '(pr, or) =>
    let off := if minus then ol - or else ol + or in
    match pl, pr with
    | None, None => Done {| what := Null; offset := off; is_address := true |}
    | Some x, Some y => if symbol_eqb x y then Done {| what := Null; offset := off; is_address := true |} else Reported
    | Some x, None => Done {| what := node_of x; offset := off; is_address := true |}
    | None, Some y => Done {| what := node_of y; offset := off; is_address := true |}
    end)).

(** evaluate_static_initializer__internal (main.c 2202-2606).  The stack grows as needed, so it is a list (top first).  An error of a nested literal
    ends the evaluation here; in the code only that of the literal, but nothing is written after an error. *)
Fixpoint evaluate (fuel : nat) (root : Z) (ops : list op) (stack : list entry) (s : state) : result state :=
  match fuel with
  | O => Assertion
  | S fuel =>
      match ops with
      | [] => Done s
      | o :: rest =>
          let push e := evaluate fuel root rest (e :: stack) s in
          match o with
          | Integer_literal v => push (plain (Int v))
          | Float_literal v => push (plain (Float v))
          | String_literal i bytes n => push (plain (String i bytes n))
          | Pointer_literal v => push (plain (Ptr v))
          | Identifier d static => if static then push (plain (Decl d)) else Reported
          | Embed bytes => push (plain (File bytes))
          | Compound_literal d body =>
              match rest with
              | Initializer off p :: rest1 =>
                  if negb (root + off + place_size p <=? Z.of_nat (length (data s))) then Assertion
                  else bind (evaluate fuel (root + off) body [] s) (fun s1 => evaluate fuel root rest1 stack s1)
              | _ => push (plain (Decl d))
              end
          | Member off => match stack with e :: st => evaluate fuel root rest ({| what := what e; offset := offset e + off; is_address := is_address e |} :: st) s | [] => Underflow end
          | Load_address => match stack with e :: st => evaluate fuel root rest ({| what := what e; offset := offset e; is_address := true |} :: st) s | [] => Underflow end
          | Load_address_lhs => match stack with r :: e :: st => evaluate fuel root rest (r :: {| what := what e; offset := offset e; is_address := true |} :: st) s | _ => Underflow end
          | Subscript size =>
              match stack with
              | i :: e :: st => match what i with Int v => evaluate fuel root rest ({| what := what e; offset := offset e + v * size; is_address := is_address e |} :: st) s | _ => Reported end
              | _ => Underflow
              end
          | Add => match stack with r :: l :: st => bind (combine false l r) (fun e => evaluate fuel root rest (e :: st) s) | _ => Underflow end
          | Subtract => match stack with r :: l :: st => bind (combine true l r) (fun e => evaluate fuel root rest (e :: st) s) | _ => Underflow end
          | Initializer off p => match stack with e :: st => bind (initialize (root + off) p e s) (fun s1 => evaluate fuel root rest st s1) | [] => Underflow end
          | Pop => Done s
          | Unknown => Reported
          end
      end
  end.

(** evaluate_static_initializer (main.c 2611-2625): the object is zero at first. *)
Definition static_initializer (fuel : nat) (ops : list op) (size : Z) : result state := evaluate fuel 0 ops [] {| data := repeat 0 (Z.to_nat size); patches := [] |}.

(** The absolute patches of an executable (coff_writer.c 1701-1724); [address] is where things are loaded. *)
Definition link (address : symbol -> Z) (s : state) : list Z :=
  fold_left (fun d '(at_, to, off) => copy at_ (little_endian 8 (wrapu 64 (match to with Object _ => address to + off | Literal _ => address to end))) d) (patches s) (data s).
