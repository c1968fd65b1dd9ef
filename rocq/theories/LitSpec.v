(** C11 6.4.4.1 for LLP64: what an integer constant means.  Does not mention the
    compiler's parser; uses its enumeration of literal kinds as vocabulary. *)
From Verif Require Import Base IntTypes CSpec LitModel.

(** Digits: 0-9, a-f, A-F. *)
Definition digit_value (c : Z) : option Z :=
  if (48 <=? c) && (c <=? 57) then Some (c - 48)
  else if (97 <=? c) && (c <=? 102) then Some (c - 87)
  else if (65 <=? c) && (c <=? 70) then Some (c - 55)
  else None.

Definition is_digit (b c : Z) : Prop := exists d, digit_value c = Some d /\ d < b.

(** A digit sequence with separators [']. *)
Definition digit_text (b : Z) (s : list Z) : Prop := Forall (fun c => c = 39 \/ is_digit b c) s.

(** What may follow: nothing, or a character that is neither digit nor separator. *)
Definition ends_digits (b : Z) (s : list Z) : Prop :=
  match s with [] => True | c :: _ => c <> 39 /\ ~ is_digit b c /\ 0 <= c < 256 end.

(** Positional value. *)
Definition add_digit (b v c : Z) : Z :=
  match digit_value c with Some d => b * v + d | None => v end.
Definition positional (b : Z) (s : list Z) : Z := fold_left (add_digit b) s 0.

(** Suffixes, written in lower case. *)
Definition lower (c : Z) : Z := if (65 <=? c) && (c <=? 90) then c + 32 else c.
Definition ident_char (c : Z) : Prop :=
  48 <= c <= 57 \/ 65 <= c <= 90 \/ 97 <= c <= 122 \/ c = 95.

Definition suffix_table : list (list Z * number_kind) :=
  [ ([], NKint);
    ([117], NKunsigned); ([108], NKlong);                              (* u l *)
    ([117;108], NKunsigned_long); ([108;117], NKunsigned_long);        (* ul lu *)
    ([108;108], NKlong_long);                                          (* ll *)
    ([117;108;108], NKunsigned_long_long); ([108;108;117], NKunsigned_long_long); (* ull llu *)
    ([105;56], NKs8); ([105;49;54], NKs16); ([105;51;50], NKs32); ([105;54;52], NKs64);      (* i8 i16 i32 i64 *)
    ([117;105;56], NKu8); ([117;105;49;54], NKu16); ([117;105;51;50], NKu32); ([117;105;54;52], NKu64) ].

Fixpoint list_eqb (a b : list Z) : bool :=
  match a, b with
  | [], [] => true
  | x :: a, y :: b => (x =? y) && list_eqb a b
  | _, _ => false
  end.

Definition suffix_kind (s : list Z) : number_kind :=
  match find (fun p => list_eqb (map lower s) (fst p)) suffix_table with
  | Some (_, k) => k
  | None => NKinvalid
  end.

(** The candidate lists of the table in 6.4.4.1p5; [long] is 32 bits here and is
    the same type object as [int]. *)
Definition Int := S32. Definition Long := S32. Definition LongLong := S64.
Definition UInt := U32. Definition ULong := U32. Definition ULongLong := U64.

Definition decimal_candidates (k : number_kind) : option (list ity) :=
  match k with
  | NKint => Some [Int; Long; LongLong]
  | NKunsigned => Some [UInt; ULong; ULongLong]
  | NKlong => Some [Long; LongLong]
  | NKunsigned_long => Some [ULong; ULongLong]
  | NKlong_long => Some [LongLong]
  | NKunsigned_long_long => Some [ULongLong]
  | _ => None
  end.

Definition other_candidates (k : number_kind) : option (list ity) :=
  match k with
  | NKint => Some [Int; UInt; Long; ULong; LongLong; ULongLong]
  | NKunsigned => Some [UInt; ULong; ULongLong]
  | NKlong => Some [Long; ULong; LongLong; ULongLong]
  | NKunsigned_long => Some [ULong; ULongLong]
  | NKlong_long => Some [LongLong; ULongLong]
  | NKunsigned_long_long => Some [ULongLong]
  | _ => None
  end.

Definition first_fit (l : list ity) (v : Z) : option ity := find (fun t => representable t v) l.

(** The MSVC suffixes which name the type: i8 i16 i32 i64 ui8 ui16 ui32 ui64. *)
Definition explicit_suffixes : list (list Z * ity) :=
  [ ([105;56], S8); ([105;49;54], S16); ([105;51;50], S32); ([105;54;52], S64);
    ([117;105;56], U8); ([117;105;49;54], U16); ([117;105;51;50], U32); ([117;105;54;52], U64) ].
