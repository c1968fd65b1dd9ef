(** Model of the code the parser generates for integer expressions with [&&], [||] and [?:]
    (parse.c 6553-6938, 7300-7440), and of what code with jumps means.  The other operators are those of
    LowerModel.v. *)
From Coq Require Import List ZArith Bool.
From Verif Require Import Base IntTypes CSpec IntModel LowerSpec LowerModel BranchSpec.
Import ListNotations.
Open Scope Z_scope.

(* ------------------------------------------------------------------ *)
(** ** Meaning *)

Section Run.
Variable var_bits : nat -> Z.

(** emit_x64.c 3731-3766: labels, jumps and conditional jumps.  All jumps of expressions go forward
    and every label is placed once (see [C44_labels]); [Some n]: control is on its way to the
    label [n].  Code that ends before the label is [Stuck].  The condition is compared with 0 in
    its own size. *)
Fixpoint run (c : list ir) (target : option nat) (s : list operand) (m : memory) : result (list operand * memory) :=
  match c with
  | [] => match target with None => Next (s, m) | Some _ => Stuck end
  | i :: c =>
      match target with
      | Some n =>
          match i with
          | Jump_label k => if Nat.eqb k n then run c None s m else run c target s m
          | _ => run c target s m
          end
      | None =>
          match i with
          | Jump_label _ => run c None s m
          | Jump n => run c (Some n) s m
          | Jump_if on_true n =>
              match s with
              | a :: s => run c (if Bool.eqb (negb (contents m a =? 0)) on_true then Some n else None) s m
              | [] => Stuck
              end
          | _ => rbind (step var_bits i s m) (fun r => run c None (fst r) (snd r))
          end
      end
  end.
End Run.

(* ------------------------------------------------------------------ *)
(** ** Code generation *)

(** [context->jump_label_index], and the types of the unnamed variables declared so far
    (parse.c [push_unnamed_declaration]).  The [k]-th of them is variable [first + k]. *)
Record counters : Set := mkcounters { next_label : nat; unnamed : list ity }.
Definition new_label (c : counters) : counters := mkcounters (S (next_label c)) (unnamed c).
Definition new_variable (t : ity) (c : counters) : counters := mkcounters (next_label c) (unnamed c ++ [t]).

Section Generate.
(** The first number that is not the number of a variable of the program, and the program's types. *)
Variable first : nat.
Variable ty : nat -> ity.

Definition variable_of (c : counters) : nat := (first + length (unnamed c))%nat.

(** [temp = value;] as a statement. *)
Definition set_temporary (x : nat) (value : Z) : list ir :=
  [Identifier x; Integer_literal (mklit S32 value); Store; Pop_expression].

(** parse.c 6559-6650 (&&), 6658-6758 (||), 7300-7333: [c] is the state after the code of [a], before that of [b];
    [c'] the state after it.  The number of the first label stays taken if both are literals. *)
Definition lower_and (a : expr) (c : counters) (b : expr) (c' : counters) : outcome (expr * counters) :=
  match literal a, literal b with
  | Some l, Some r => obind (fold_land l r) (fun q => Done (literal_expr q, c'))
  | _, _ =>
      let no := next_label c in
      let temp := variable_of c' in
      let done := next_label c' in
      Done (mkexpr (emit a ++ [Jump_if false no] ++ emit b ++ [Jump_if false no] ++ set_temporary temp 1 ++ [Jump done] ++
                    [Jump_label no] ++ set_temporary temp 0 ++ [Jump_label done] ++ [Identifier temp]) S32 None,
            new_label (new_variable S32 c'))
  end.

Definition lower_or (a : expr) (c : counters) (b : expr) (c' : counters) : outcome (expr * counters) :=
  match literal a, literal b with
  | Some l, Some r => obind (fold_lor l r) (fun q => Done (literal_expr q, c'))
  | _, _ =>
      let yes := next_label c in
      let temp := variable_of c' in
      let done := next_label c' in
      Done (mkexpr (emit a ++ [Jump_if true yes] ++ emit b ++ [Jump_if true yes] ++ set_temporary temp 0 ++ [Jump done] ++
                    [Jump_label yes] ++ set_temporary temp 1 ++ [Jump_label done] ++ [Identifier temp]) S32 None,
            new_label (new_variable S32 c'))
  end.

(** parse.c 7353-7391, 6866-6935: a literal as condition selects at compile time; the code of the other
    operand is discarded. *)
Definition select_branch (is_true : bool) (a b : expr) (c : counters) : outcome (expr * counters) :=
  match usual_conversions_int (resolved_type a) (resolved_type b) with
  | None => Crash
  | Some t => Done (cast_expr t (if is_true then a else b), c)
  end.

(** parse.c 7392-7436, 6766-6864: [no] and [done] are the labels, [c] the state after the code of [b].  The cast of
    the second operand is generated behind the code of the third one and then moved
    to the place kept free for it; a no-op stays where it was. *)
Definition lower_conditional (cond a b : expr) (no done : nat) (c : counters) : outcome (expr * counters) :=
  match usual_conversions_int (resolved_type a) (resolved_type b) with
  | None => Crash
  | Some t =>
      let '(a, ca) := push_cast_expr false t a in
      let '(b, cb) := push_cast_expr false t b in
      let kept := match ca with [] => [Nop] | _ => ca end in
      let moved := match ca with [] => [] | _ => [Nop] end in
      let larger := if size (resolved_type b) <? size (resolved_type a) then resolved_type a else resolved_type b in
      let temp := variable_of c in
      Done (mkexpr (emit cond ++ [Jump_if false no] ++
                    [Identifier temp] ++ emit a ++ kept ++ [Store; Pop_expression] ++ [Jump done] ++
                    [Jump_label no] ++ [Identifier temp] ++ emit b ++ moved ++ cb ++ [Store; Pop_expression] ++
                    [Jump_label done] ++ [Identifier temp]) (resolved_type a) None,
            new_variable larger c)
  end.

(** The code of an expression (LowerModel.v [lower], with the counters). *)
Fixpoint generate (e : bexpr) (c : counters) : outcome (expr * counters) :=
  match e with
  | BLit t p => Done (literal_expr (mklit t p), c)
  | BVar x => Done (mkexpr [Identifier x] (ty x) None, c)
  | BUn o a => obind (generate a c) (fun '(a, c) => obind (lower_un o a) (fun q => Done (q, c)))
  | BCast t a => obind (generate a c) (fun '(a, c) => Done (cast_expr t a, c))
  | BArith o a b => obind (generate a c) (fun '(a, c) => obind (generate b c) (fun '(b, c) => obind (lower_arith o a b) (fun q => Done (q, c))))
  | BCmp o a b => obind (generate a c) (fun '(a, c) => obind (generate b c) (fun '(b, c) => obind (lower_cmp o a b) (fun q => Done (q, c))))
  | BBit o a b => obind (generate a c) (fun '(a, c) => obind (generate b c) (fun '(b, c) => obind (lower_bit o a b) (fun q => Done (q, c))))
  | BShl a b => obind (generate a c) (fun '(a, c) => obind (generate b c) (fun '(b, c) => obind (lower_shift true a b) (fun q => Done (q, c))))
  | BShr a b => obind (generate a c) (fun '(a, c) => obind (generate b c) (fun '(b, c) => obind (lower_shift false a b) (fun q => Done (q, c))))
  | BComma a b =>
      obind (generate a c) (fun '(a, c) => obind (generate b c) (fun '(b, c) =>
        Done (mkexpr (emit a ++ [Pop_expression] ++ emit b ++ [Nop]) (resolved_type b) None, c)))
  | BAnd a b => obind (generate a c) (fun '(a, c) => obind (generate b (new_label c)) (fun '(b, c') => lower_and a c b c'))
  | BOr a b => obind (generate a c) (fun '(a, c) => obind (generate b (new_label c)) (fun '(b, c') => lower_or a c b c'))
  | BCond x a b =>
      obind (generate x c) (fun '(x, c) =>
      match literal x with
      | Some l =>
          obind (generate a c) (fun '(a, c) => obind (generate b c) (fun '(b, c) =>
            select_branch (negb (integer_literal_as_u64 l =? 0)) a b c))
      | None =>
          obind (generate a (new_label c)) (fun '(a, ca) => obind (generate b (new_label ca)) (fun '(b, cb) =>
            lower_conditional x a b (next_label c) (next_label ca) cb))
      end)
  end.

(** The types of all variables, those of the program and the unnamed ones. *)
Definition all_types (c : counters) (x : nat) : ity :=
  if Nat.ltb x first then ty x else nth (x - first) (unnamed c) S32.
End Generate.
