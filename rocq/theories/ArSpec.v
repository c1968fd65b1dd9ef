(** Library archives, written independently of the reader: the archive format of the PE documentation. *)
From Verif Require Import Base.

Definition u16le (x : Z) : list Z := [x mod 256; x / 256 mod 256].
Definition u32le (x : Z) : list Z := [x mod 256; x / 256 mod 256; x / 65536 mod 256; x / 16777216 mod 256].

(** [digits] is a decimal numeral for [n]. *)
Definition value (digits : list Z) : Z := fold_left (fun v d => 10 * v + (d - 48)) digits 0.
Definition numeral (digits : list Z) (n : Z) : Prop :=
  digits <> [] /\ Forall (fun d => 48 <= d <= 57) digits /\ value digits = n.

(** The 60 bytes in front of a member: name, dates and modes, size, end marker. *)
Inductive header : list Z -> list Z -> Z -> Prop :=
| header_intro : forall name dates digits n, (length name <= 16)%nat -> length dates = 32%nat -> (length digits <= 10)%nat ->
    numeral digits n ->
    header (name ++ repeat 32 (16 - length name) ++ dates ++ digits ++ repeat 32 (10 - length digits) ++ [96; 10]) name n.

Definition pad (data : list Z) : list Z := if Nat.odd (length data) then [10] else [].

(** The second linker member: where the members are, and for every symbol, in lexical order, the
    (one-based) number of its member. *)
Definition symbol_index (offsets : list Z) (symbols : list (list Z * Z)) : list Z :=
  u32le (Z.of_nat (length offsets)) ++ concat (map u32le offsets) ++
  u32le (Z.of_nat (length symbols)) ++ concat (map (fun s => u16le (snd s)) symbols) ++
  concat (map (fun s => fst s ++ [0]) symbols).

Definition archive (h1 first h2 index members : list Z) : list Z :=
  [33; 60; 97; 114; 99; 104; 62; 10] ++ h1 ++ first ++ pad first ++ h2 ++ index ++ pad index ++ members.

(** Lexical order of names. *)
Inductive before : list Z -> list Z -> Prop :=
| before_nil : forall c b, before [] (c :: b)
| before_head : forall x y a b, x < y -> before (x :: a) (y :: b)
| before_tail : forall x a b, before a b -> before (x :: a) (x :: b).
Inductive in_order : list (list Z) -> Prop :=
| in_order_nil : in_order []
| in_order_cons : forall n ns, (forall m, In m ns -> before n m) -> in_order ns -> in_order (n :: ns).

(** [at_ file off l]: the bytes [l] are in the file at [off]. *)
Definition at_ (file : list Z) (off : Z) (l : list Z) : Prop :=
  exists a b, file = a ++ l ++ b /\ Z.of_nat (length a) = off.

Definition byte (c : Z) : Prop := 0 <= c < 256.
