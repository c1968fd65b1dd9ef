(** Macro expansion: expand_define and the loops that feed it (preprocess.c 123-175, 1811-2504, 3470-3515). *)
From Coq Require Import List Arith Lia Bool.
Import ListNotations.

(** Tokens as far as expansion looks at them.  [Final] is TOKEN_identifier_dont_expand_because_it_comes_from_a_fully_expanded_macro; [Blank] stands
    for whitespace and comments, [Other] for the rest (the contents of strings that '#' makes are not modelled). *)
Inductive tok : Set := Name (n : nat) | Final (n : nat) | Open | Close | Comma | Blank | Newline | Other (k : nat).

(** struct define_replacement_node (preprocess.c 56-85); an argument or the token itself for what follows '##'. *)
Inductive replacement : Set := Tokens (l : list tok) | Argument (i : nat) | Hash (i : nat) | Paste (prefix : option nat) (postfix : nat + tok).
(** struct define_node (preprocess.c 95-120) without the builtin macros. *)
Record macro : Set := { function_like : bool; params : nat; varargs : bool; body : list replacement }.

(** struct token_stack_node (main.c 716): the tokens not yet read and the macro to enable again at the end.  The nodes that one expansion pushes are
    one node here: only the lowest of them has a macro, so no difference can be seen. *)
Record node : Set := { rest : list tok; name : option nat }.

(** The context: the stack down to blocked_size (top first), the macros of the nodes below, the macros with is_disabled set, and whether an error was
    reported.  The log is not in the code: for every replacement, the macro and the macros of all nodes at that time. *)
Record state : Set := { stack : list node; below : list nat; disabled : list nat; failed : bool; log : list (nat * list nat) }.

(** What a function leaves: a value, a failed assertion, or no more fuel. *)
Inductive result (A : Set) : Set := Ran (a : A) (s : state) | Assert (s : state) | More (s : state).
Arguments Ran {A}. Arguments Assert {A}. Arguments More {A}.
Definition bind {A B : Set} (r : result A) (f : A -> state -> result B) : result B := match r with Ran a s => f a s | Assert s => Assert s | More s => More s end.

Definition names_of (ns : list node) : list nat := flat_map (fun n => match name n with Some m => [m] | None => [] end) ns.
Definition active (s : state) : list nat := names_of (stack s) ++ below s.
Definition set_stack (s : state) (ns : list node) (d : list nat) : state := {| stack := ns; below := below s; disabled := d; failed := failed s; log := log s |}.
Definition fail (s : state) : state := {| stack := stack s; below := below s; disabled := disabled s; failed := true; log := log s |}.

(** get_current_token_raw (preprocess.c 140-161): nodes that are used up are dropped and their macros enabled. *)
Definition reenable (n : node) (d : list nat) : list nat := match name n with Some m => remove Nat.eq_dec m d | None => d end.
Fixpoint settle (ns : list node) (d : list nat) : list node * list nat :=
  match ns with [] => ([], d) | n :: ns1 => match rest n with [] => settle ns1 (reenable n d) | _ :: _ => (ns, d) end end.
Definition current (s : state) : option tok * state :=
  let '(ns, d) := settle (stack s) (disabled s) in
  (match ns with n :: _ => hd_error (rest n) | [] => None end, set_stack s ns d).
(** next_token_raw (preprocess.c 163-175). *)
Definition next (s : state) : option tok * state :=
  let '(t, s1) := current s in
  match stack s1 with [] => (t, s1) | n :: ns => (t, set_stack s1 ({| rest := tl (rest n); name := name n |} :: ns) (disabled s1)) end.

(** eat_whitespace_and_comments, eat_whitespace_comments_and_newlines (preprocess.c 1811-1827). *)
Definition is_blank (t : tok) : bool := match t with Blank => true | _ => false end.
Definition is_space (t : tok) : bool := match t with Blank | Newline => true | _ => false end.
Fixpoint drop_while (p : tok -> bool) (l : list tok) : list tok := match l with t :: l1 => if p t then drop_while p l1 else l | [] => [] end.
Fixpoint eat_nodes (p : tok -> bool) (ns : list node) (d : list nat) : list node * list nat :=
  match ns with
  | [] => ([], d)
  | n :: ns1 => match drop_while p (rest n) with [] => eat_nodes p ns1 (reenable n d) | l => ({| rest := l; name := name n |} :: ns1, d) end
  end.
Definition eat (p : tok -> bool) (s : state) : state := let '(ns, d) := eat_nodes p (stack s) (disabled s) in set_stack s ns d.

(** An upper bound of the steps of the loops below. *)
Definition size (s : state) : nat := S (list_sum (map (fun n => length (rest n)) (stack s))).

(** The loop of the fast path for empty replacement lists (preprocess.c 1998-2012): was the closing parenthesis found? *)
Fixpoint skip (fuel depth : nat) (s : state) : result bool :=
  match fuel with
  | O => More s
  | S fuel =>
      match next s with
      | (None, s1) => Ran false s1
      | (Some Open, s1) => skip fuel (S depth) s1
      | (Some Close, s1) => match depth with S (S d) => skip fuel (S d) s1 | _ => Ran true s1 end
      | (Some _, s1) => skip fuel depth s1
      end
  end.

(** The collection of the arguments (preprocess.c 2056-2208); [left] arguments come after the one being collected. *)
Inductive collected : Set := Arguments (args : list (list tok)) | Too_many | Too_few | Unclosed.
Definition finish (va : bool) (left : nat) (args : list (list tok)) : collected :=
  match left with O => Arguments args | S O => if va then Arguments (args ++ [[]]) else Too_few | _ => Too_few end.
Definition append (cur : list tok) (blank : option tok) (t : tok) : list tok := cur ++ (match blank with Some b => [b] | None => [] end) ++ [t].
Fixpoint collect (fuel : nat) (va : bool) (left depth : nat) (args : list (list tok)) (cur : list tok) (blank : option tok) (s : state) : result collected :=
  match fuel with
  | O => More s
  | S fuel =>
      match next s with
      | (None, s1) => Ran Unclosed s1
      | (Some t, s1) =>
          let keep depth :=
            if is_space t then collect fuel va left depth args cur (Some t) s1 else collect fuel va left depth args (append cur blank t) None s1 in
          match t with
          | Comma =>
              if depth =? 1 then
                match left with
                | S left1 => collect fuel va left1 depth (args ++ [cur]) [] None (eat is_space s1)
                | O => if va then keep depth else Ran Too_many s1
                end
              else keep depth
          | Open => keep (S depth)
          | Close => match depth with S (S d) => keep (S d) | _ => Ran (finish va left (args ++ [cur])) s1 end
          | _ => keep depth
          end
      end
  end.

Section Expansion.
(** The tokens of two texts put together (tokenize_raw, see TokenModel); either can be missing. *)
Variable paste : option tok -> option tok -> list tok.
(** lookup_define *)
Variable table : nat -> option macro.

(** The last token that is not blank and what stands before it (preprocess.c 2396-2416); none is an assertion. *)
Definition last_token (l : list tok) : option (list tok * tok) := match drop_while is_space (rev l) with t :: r => Some (rev r, t) | [] => None end.
(** The replacement list with the arguments put in (preprocess.c 2329-2468). *)
Fixpoint assemble (raw expanded : list (list tok)) (acc : list tok) (b : list replacement) : option (list tok) :=
  match b with
  | [] => Some acc
  | Tokens l :: b => assemble raw expanded (acc ++ l) b
  | Argument i :: b => assemble raw expanded (acc ++ nth i expanded []) b
  | Hash _ :: b => assemble raw expanded (acc ++ [Other 0]) b
  | Paste p q :: b =>
      let prefix :=
        match p with
        | Some i => match rev (nth i raw []) with [] => Some (acc, None) | t :: r => Some (acc ++ rev r, Some t) end
        | None => match last_token acc with Some (l, t) => Some (l, Some t) | None => None end
        end in
      match prefix with
      | None => None
      | Some (acc1, t) =>
          let '(u, tail) := match q with inl i => match nth i raw [] with [] => (None, []) | u :: r => (Some u, r) end | inr u => (Some u, []) end in
          match t, u with
          | Some Comma, None => assemble raw expanded acc1 b
          | _, _ => assemble raw expanded (acc1 ++ paste t u ++ tail) b
          end
      end
  end.

(** Is argument [i] used as it is (needs_to_be_expanded_count, preprocess.c 4037)? *)
Definition uses (i : nat) (b : list replacement) : bool := existsb (fun r => match r with Argument j => i =? j | _ => false end) b.

(** The expansion of the arguments (preprocess.c 2210-2307); [scan_arg] is the loop over one of them. *)
Fixpoint expand_args (scan_arg : list tok -> state -> result (list tok)) (b : list replacement) (i : nat) (raw : list (list tok)) (s : state) : result (list (list tok)) :=
  match raw with
  | [] => Ran [] s
  | a :: raw1 =>
      bind (if uses i b then match a with [] => Ran [] s | _ :: _ => scan_arg a s end else Ran [] s)
        (fun out s1 => bind (expand_args scan_arg b (S i) raw1 s1) (fun outs s2 => Ran (out :: outs) s2))
  end.

(** The end of expand_define (preprocess.c 2310-2504). *)
Definition replace (n : nat) (m : macro) (raw expanded : list (list tok)) (s : state) : result (option tok) :=
  let s1 := {| stack := stack s; below := below s; disabled := disabled s; failed := failed s; log := (n, active s) :: log s |} in
  match body m with
  | [] => Ran None s1
  | _ :: _ =>
      match assemble raw expanded [] (body m) with
      | None => Assert s1
      | Some l => Ran None (set_stack s1 ({| rest := l; name := Some n |} :: stack s1) (n :: disabled s1))
      end
  end.

(** expand_define (preprocess.c 1830-2504): the token that is left of the name, if any. *)
Definition expand (scan_arg : list tok -> state -> result (list tok)) (n : nat) (m : macro) (s : state) : result (option tok) :=
  if function_like m then
    let s1 := snd (next s) in
    if params m =? 0 then
      let s2 := eat is_blank s1 in
      match current s2 with
      | (Some Close, s3) => replace n m [] [] (snd (next s3))
      | (_, s3) => replace n m [] [] (fail s3)
      end
    else match body m with
    | [] => bind (skip (size s1) 1 s1) (fun found s2 => if found : bool then replace n m [] [] s2 else Ran (Some (Name n)) (fail s2))
    | _ :: _ =>
        let s2 := eat is_space s1 in
        bind (collect (size s2) (varargs m) (params m - 1) 1 [] [] None s2) (fun c s3 =>
          match c with
          | Arguments raw => bind (expand_args scan_arg (body m) 0 raw s3) (fun expanded s4 => replace n m raw expanded s4)
          | _ => Ran (Some (Name n)) (fail s3)
          end)
    end
  else replace n m [] [] s.

(** The tokens of one argument are read with everything below out of reach (preprocess.c 2216-2230, 2306). *)
Definition isolate (a : list tok) (s : state) : state := {| stack := [{| rest := a; name := None |}]; below := active s; disabled := disabled s; failed := failed s; log := log s |}.
Definition restore (s s1 : state) : state := {| stack := stack s; below := below s; disabled := disabled s1; failed := failed s1; log := log s1 |}.
Definition isolated (scan : state -> result (list tok)) (a : list tok) (s : state) : result (list tok) :=
  match scan (isolate a s) with Ran out s1 => Ran out (restore s s1) | Assert s1 => Assert (restore s s1) | More s1 => More (restore s s1) end.

(** The loop over the tokens of a file up to a directive (preprocess.c 3480-3515) and, [nested], over those of an argument (preprocess.c 2240-2296). *)
Fixpoint scan (fuel : nat) (nested : bool) (s : state) : result (list tok) :=
  match fuel with
  | O => More s
  | S fuel =>
      let emit t s := bind (scan fuel nested s) (fun out s1 => Ran (if negb nested && is_space t then out else t :: out) s1) in
      match next s with
      | (None, s1) => Ran [] s1
      | (Some (Name n), s1) =>
          match table n with
          | None => emit (Name n) s1
          | Some m =>
              let off := existsb (Nat.eqb n) (disabled s1) in
              if negb nested && off then emit (Name n) s1
              else
                let s2 := if function_like m then eat is_space s1 else s1 in
                let '(t, s3) := if function_like m then current s2 else (Some Open, s2) in
                match t with
                | Some Open =>
                    if nested && existsb (Nat.eqb n) (disabled s3) then emit (Final n) s3
                    else bind (expand (isolated (scan fuel true)) n m s3) (fun t s4 => match t with Some t => emit t s4 | None => scan fuel nested s4 end)
                | _ => emit (Name n) s3
                end
          end
      | (Some t, s1) => emit t s1
      end
  end.
End Expansion.

(** The state before the first token of a file (preprocess.c 3424-3429). *)
Definition start (source : list tok) : state := {| stack := [{| rest := source; name := None |}]; below := []; disabled := []; failed := false; log := [] |}.
