(** Model of the list sort [sll_sort] (std.c 331-467) and of the two comparison
    functions it is used with. *)
From Verif Require Import Base.

Section sort.
  Context {A : Type}.
  (** The macro argument [smaller_function_or_define(it, piveot)]. *)
  Variable smaller_fn : A -> A -> bool.

  (** std.c 399-423: distribute the elements after the pivot; [sll]s are lists, pushing
      in front is [cons]. *)
  Fixpoint distribute (it : list A) (piveot : A) (smaller bigger : list A) : list A * list A :=
    match it with
    | [] => (smaller, bigger)
    | x :: next =>
        if smaller_fn x piveot then distribute next piveot (x :: smaller) bigger
        else distribute next piveot smaller (x :: bigger)
    end.

  (** std.c 358-463: the loop over the explicit stack of lists.  [None]: fuel ran out.
      An empty list never gets on the stack ([first == last == null] would append null). *)
  Fixpoint sort_loop (fuel : nat) (stack : list (list A)) (out : list A) : option (list A) :=
    match fuel with
    | O => None
    | S fuel =>
        match stack with
        | [] => Some out
        | current :: stack =>
            match current with
            | [] => None
            | [node] => sort_loop fuel stack (out ++ [node])
            | piveot :: list =>
                let '(smaller, bigger) := distribute list piveot [] [] in
                let stack := match bigger with [] => stack | _ => bigger :: stack end in
                match smaller with
                | [] => sort_loop fuel stack (out ++ [piveot])
                | [node] => sort_loop fuel stack (out ++ [node; piveot])
                | _ => sort_loop fuel ((smaller ++ [piveot]) :: stack) out
                end
            end
        end
    end.

  (** std.c 336-352, 465-466: nothing is done for lists of length 0 and 1. *)
  Definition sll_sort (fuel : nat) (l : list A) : option (list A) :=
    match l with
    | [] | [_] => Some l
    | _ => sort_loop fuel [l] []
    end.
End sort.

(** std.c 1116-1126 [string_lexically_smaller]; bytes are unsigned. *)
Fixpoint string_lexically_smaller (a b : list Z) : bool :=
  match a, b with
  | x :: a, y :: b => if x <? y then true else if x >? y then false else string_lexically_smaller a b
  | [], _ :: _ => true
  | _, [] => false
  end.

(** diagnostic.c 52-68 [struct error_report_node]: what the comparison looks at.  The
    token is [None] for null; [token_address] is the token's address. *)
Record token_location : Set := mktoken
  { file_index : Z; line : Z; column : Z; token_address : Z }.

(** main.c 332-342 [enum compile_stage]: the values which can carry an error. *)
Inductive compile_stage : Set := stage_tokenize | stage_parse_global | stage_parse_function | stage_emit.
Definition stage_index (s : compile_stage) : Z :=
  match s with stage_tokenize => 1 | stage_parse_global => 2 | stage_parse_function => 3 | stage_emit => 4 end.

Record error_node : Set := mkerror
  { compilation_unit_index : Z; error_stage : compile_stage; error_token : option token_location }.

(** diagnostic.c 70-121 [error_node_smaller_function] *)
Definition error_node_smaller_function (it piveot : error_node) : bool :=
  if compilation_unit_index it <? compilation_unit_index piveot then true
  else if compilation_unit_index it >? compilation_unit_index piveot then false
  else if stage_index (error_stage it) <? stage_index (error_stage piveot) then true
  else if stage_index (error_stage it) >? stage_index (error_stage piveot) then false
  else match error_token piveot, error_token it with
       | None, _ => false
       | _, None => true
       | Some p, Some t =>
           match error_stage it with
           | stage_tokenize =>
               if file_index t <? file_index p then true
               else if file_index t >? file_index p then false
               else if line t <? line p then true
               else if line t >? line p then false
               else if column t <? column p then true
               else if column t >? column p then false
               else false
           | _ => token_address t <? token_address p
           end
       end.
