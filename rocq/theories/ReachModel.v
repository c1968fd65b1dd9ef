(** The search for the declarations to be emitted (C34): main.c 5461-5596. *)
From Verif Require Import Base ScopeModel.

(** ast.c 528-580, 740-770 [ast_declaration], [ast_function]: what the search looks at.
    [defined]: [assign_expr] or, in the same slot, [scope] is not null.
    [external]: DECLARATION_FLAGS_is_extern or DECLARATION_FLAGS_is_dllimport.
    [exported]: DECLARATION_FLAGS_is_dllexport.
    [refs]: the list [referenced_declarations].  Declarations are numbered. *)
Record declaration : Type := mkdecl {
  is_function : bool; defined : bool; intrinsic : bool; inline_asm : bool; external : bool; exported : bool; refs : list nat }.

(** What the search changes: the flag DECLARATION_FLAGS_is_reachable_from_entry of each
    declaration, the queue of the functions to generate code for (in order), the data whose
    initializer is evaluated, the symbols looked up in the import libraries, and the errors. *)
Record state : Type := mkstate { flag : nat -> bool; code : list nat; data : list nat; libraries : list nat; errors : list nat }.
Definition set_flag (s : state) (d : nat) : state := mkstate (fun e => if Nat.eqb e d then true else flag s e) (code s) (data s) (libraries s) (errors s).
Definition push_code (s : state) (d : nat) : state := mkstate (flag s) (code s ++ [d]) (data s) (libraries s) (errors s).
Definition push_data (s : state) (d : nat) : state := mkstate (flag s) (code s) (data s ++ [d]) (libraries s) (errors s).
Definition push_library (s : state) (d : nat) : state := mkstate (flag s) (code s) (data s) (libraries s ++ [d]) (errors s).
Definition push_error (s : state) (d : nat) : state := mkstate (flag s) (code s) (data s) (libraries s) (errors s ++ [d]).

Section Search.
Variable g : nat -> declaration.
(** [globals.output_file_type == OUTPUT_FILE_obj] *)
Variable obj : bool.

(** main.c 5522-5577: what is done for a declaration found through a reference.  The sizes of
    arrays of unknown size (5550-5566) are not modelled. *)
Definition visit (s : state) (d : nat) : state :=
  let s := set_flag s d in
  if is_function (g d) then
    if intrinsic (g d) then s
    else if negb (defined (g d)) then
      if obj then s else if exported (g d) then push_error s d else push_library s d
    else if negb (inline_asm (g d)) then push_code s d else s
  else
    let s := if defined (g d) then push_data s d else s in
    if negb obj && (negb (defined (g d)) && external (g d)) then push_library s d else s.

(** main.c 5474-5488: what is done for a root. *)
Definition visit_root (s : state) (d : nat) : state :=
  let s := set_flag s d in
  let s := if is_function (g d) && defined (g d) then push_code s d else s in
  if negb (is_function (g d)) && defined (g d) then push_data s d else s.

(** main.c 5508-5594: the loop.  A stack node is the rest of its list of references ([at]).
    [fuel] bounds the number of iterations; running out of it is a crash. *)
Fixpoint search (fuel : nat) (stack : list (list nat)) (s : state) : outcome state :=
  match stack with
  | [] => Done s
  | node :: below =>
      match fuel with
      | O => Crash
      | S fuel =>
          match node with
          | [] => search fuel below s
          | d :: next =>
              if flag s d then search fuel (next :: below) s
              else
                let s := visit s d in
                match refs (g d) with
                | [] => search fuel (next :: below) s
                | first => search fuel (first :: next :: below) s
                end
          end
      end
  end.

(** main.c 5465-5595: all roots. *)
Fixpoint search_roots (fuel : nat) (roots : list nat) (s : state) : outcome state :=
  match roots with
  | [] => Done s
  | d :: roots =>
      if flag s d then search_roots fuel roots s
      else
        let s := visit_root s d in
        match refs (g d) with
        | [] => search_roots fuel roots s
        | first => obind (search fuel [first] s) (fun s => search_roots fuel roots s)
        end
  end.
Definition find_reachable (fuel : nat) (roots : list nat) : outcome state :=
  search_roots fuel roots (mkstate (fun _ => false) [] [] [] []).
End Search.
