(** What C says about the characters of literals (C11 6.4.4.4, 6.4.5, 5.1.1.2). *)
From Verif Require Import Base StringModel UtilSpec.

Inductive newline : Set := Lf | CrLf | Cr.
Inductive element : Set :=
  | Plain (c : Z)                        (* a character of the source *)
  | Simple (letter : Z)                  (* \n, \t, ... *)
  | Octal (ds : list Z)
  | Hex (ds : list (bool * Z))           (* hexadecimal digits, true for a capital letter *)
  | Ucn (long : bool) (ds : list (bool * Z))   (* \uXXXX, \UXXXXXXXX *)
  | Splice (n : newline).                (* a backslash at the end of the line *)

Definition hex_char (d : bool * Z) : Z := if snd d <? 10 then 48 + snd d else if fst d then 55 + snd d else 87 + snd d.
Definition newline_bytes (n : newline) : list Z := match n with Lf => [10] | CrLf => [13; 10] | Cr => [13] end.
(** The bytes of the source. *)
Definition source (e : element) : list Z :=
  match e with
  | Plain c => utf8 c
  | Simple l => [92; l]
  | Octal ds => 92 :: map (fun d => 48 + d) ds
  | Hex ds => 92 :: 120 :: map hex_char ds
  | Ucn long ds => 92 :: (if long then 85 else 117) :: map hex_char ds
  | Splice n => 92 :: newline_bytes n
  end.

Definition number (base : Z) (ds : list Z) : Z := fold_left (fun v d => v * base + d) ds 0.
Definition encode (k : kind) (c : Z) : list Z := match k with Utf8 => utf8 c | Utf16 => utf16 c | Utf32 => [c] end.
(** The escapes of C, and \e. *)
Definition simple_values : list (Z * Z) := [(39, 39); (34, 34); (63, 63); (92, 92); (97, 7); (98, 8); (102, 12); (110, 10); (114, 13); (116, 9); (118, 11); (101, 27)].
Definition simple_value (l : Z) : option Z := option_map snd (find (fun x => fst x =? l) simple_values).
(** The units of the execution character set. *)
Definition meaning (k : kind) (e : element) : list Z :=
  match e with
  | Plain c => encode k c
  | Simple l => match simple_value l with Some v => [v] | None => [] end
  | Octal ds => [number 8 ds]
  | Hex ds => [number 16 (map snd ds)]
  | Ucn _ ds => encode k (number 16 (map snd ds))
  | Splice _ => []
  end.

Definition largest_unit (k : kind) : Z := match k with Utf8 => 2 ^ 8 - 1 | Utf16 => 2 ^ 16 - 1 | Utf32 => 2 ^ 32 - 1 end.
Definition hex_digit (d : bool * Z) : Prop := 0 <= snd d < 16.
Definition valid (k : kind) (e : element) : Prop :=
  match e with
  | Plain c => scalar c /\ c <> 92
  | Simple l => simple_value l <> None
  | Octal ds => Forall (fun d => 0 <= d < 8) ds /\ (1 <= length ds <= 3)%nat /\ number 8 ds <= largest_unit k
  | Hex ds => Forall hex_digit ds /\ ds <> [] /\ number 16 (map snd ds) <= largest_unit k
  | Ucn long ds => Forall hex_digit ds /\ length ds = (if long then 8 else 4)%nat /\ scalar (number 16 (map snd ds))
  | Splice _ => True
  end.
(** An escape extends as far as it can: what follows cannot continue it. *)
Definition follows (e : element) (rest : list Z) : Prop :=
  match e with
  | Octal ds => (length ds < 3)%nat -> forall d, 0 <= d < 8 -> hd_error rest <> Some (48 + d)
  | Hex ds => forall d, hex_digit d -> hd_error rest <> Some (hex_char d)
  | Splice Cr => hd_error rest <> Some 10
  | _ => True
  end.
Fixpoint separated (es : list element) : Prop := match es with [] => True | e :: es => follows e (flat_map source es) /\ separated es end.

(** The characters whose UTF-16 encoding the compiler gets right. *)
Definition encodable (k : kind) (e : element) : Prop :=
  let ok c := k = Utf16 -> 65536 <= c -> Z.testbit c 8 = true in
  match e with Plain c => ok c | Ucn _ ds => ok (number 16 (map snd ds)) | _ => True end.

(** A text of bytes. *)
Definition bytes (s : list Z) : Prop := Forall (fun b => 0 <= b < 256) s.
(** The escape [e] has digits of the right kind but a value above the largest unit. *)
Definition too_large (k : kind) (e : element) : Prop :=
  match e with
  | Octal ds => Forall (fun d => 0 <= d < 8) ds /\ (1 <= length ds <= 3)%nat /\ largest_unit k < number 8 ds
  | Hex ds => Forall hex_digit ds /\ ds <> [] /\ largest_unit k < number 16 (map snd ds)
  | _ => False
  end.

(** The bytes that must follow the first byte of a character in UTF-8. *)
Definition following (lead : Z) : nat := if lead <? 224 then 1%nat else if lead <? 240 then 2%nat else 3%nat.
(** A character starts but does not end as UTF-8 demands. *)
Definition truncated (t : list Z) : Prop :=
  exists lead r, t = lead :: r /\ 192 <= lead < 248 /\ forall cs r', r = cs ++ r' -> length cs = following lead -> ~ Forall (fun c => 128 <= c < 192) cs.
