(** Reading a [#define] directive and comparing two definitions of the same macro. *)
From Verif Require Import Base ScopeModel.

(** ast.c 325-335 struct token.  A token is its kind and its spelling; kinds with a single
    spelling carry none.  [Space] stands for both TOKEN_whitespace and TOKEN_comment.  No two
    kinds share a spelling, so [atoms_match] (ast.c 341-347, hash, size and bytes; the hash is
    a function of the spelling, preprocess.c 1780-1788 or zero) is equality of tokens. *)
Inductive token : Type :=
| Space (spelling : name) | Ident (n : name) | Open | Closed | Comma | Dots | Hash | HashHash | Other (spelling : name).
Definition token_dec : forall a b : token, {a = b} + {a <> b}.
Proof. decide equality; apply name_eq. Defined.
Definition atoms_match (a b : token) : bool := if token_dec a b then true else false.
Definition is_space (t : token) : bool := match t with Space _ => true | _ => false end.

(** preprocess.c 1812-1818 [eat_whitespace_and_comments].  A directive's tokens are a list;
    its end stands for the newline. *)
Fixpoint eat (ts : list token) : list token :=
  match ts with
  | Space _ :: ts => eat ts
  | _ => ts
  end.

(** preprocess.c 25-52: the parameters, in order, and [lookup_define_argument]. *)
Definition va_args : name := [95; 95; 86; 65; 95; 65; 82; 71; 83; 95; 95].
Fixpoint position (n : name) (args : list name) : option nat :=
  match args with
  | [] => None
  | a :: args => if names_match a n then Some O else option_map S (position n args)
  end.
Definition argument_of (args : list name) (t : token) : option nat :=
  match t with Ident n => position n args | _ => None end.

(** preprocess.c 3935-3978: the parameter list behind its opening parenthesis. *)
Fixpoint parameters (fuel : nat) (args : list name) (ts : list token) : outcome (list name * bool * list token) :=
  match fuel with
  | O => Crash
  | S fuel =>
      match eat ts with
      | Dots :: ts =>
          match eat ts with
          | Closed :: ts => Done (args ++ [va_args], true, ts)
          | _ => Reported
          end
      | Ident n :: ts =>
          match position n args with
          | Some _ => Reported
          | None =>
              match eat ts with
              | Comma :: ts => parameters fuel (args ++ [n]) ts
              | Closed :: ts => Done (args ++ [n], false, ts)
              | _ => Reported
              end
          end
      | _ => Reported
      end
  end.

(** preprocess.c 59-85 struct define_replacement_node.  An argument is [None] for -1.
    [postfix_token] is only compared here through [postfix_argument]. *)
Inductive node : Type :=
| Tokens (ts : list token)
| Argument (i : nat)
| Stringify (stringify_index : nat)
| Paste (prefix postfix : option nat) (postfix_token : token).

(** preprocess.c 4090-4139: append a token to the run of tokens it belongs to.  The code
    extends the last node while reading forwards; here the nodes of the rest of the text are
    known already and the token is put in front. *)
Definition add_token (t : token) (rest : list node) : list node :=
  match rest with
  | Tokens ts :: rest => Tokens (t :: ts) :: rest
  | _ => Tokens [t] :: rest
  end.

(** preprocess.c 3932-3933, 4063: the arguments that are stringified, in the order in which
    they got their [stringify_index]. *)
Fixpoint index_of (i : nat) (l : list nat) : option nat :=
  match l with [] => None | x :: l => if Nat.eqb x i then Some O else option_map S (index_of i l) end.
Definition stringify (strs : list nat) (i : nat) : nat * list nat :=
  match index_of i strs with
  | Some k => (k, strs)
  | None => (length strs, strs ++ [i])
  end.

(** preprocess.c 3996-4149: the replacement list. *)
Fixpoint replacement (fuel : nat) (args : list name) (strs : list nat) (ts : list token) : outcome (list node) :=
  match fuel with
  | O => Crash
  | S fuel =>
      match ts with
      | [] => Done []
      | t :: rest =>
          match argument_of args t with
          | Some i =>
              match eat rest with
              | HashHash :: rest =>
                  match eat rest with
                  | [] => Reported
                  | p :: rest => obind (replacement fuel args strs (eat rest)) (fun l => Done (Paste (Some i) (argument_of args p) p :: l))
                  end
              | rest => obind (replacement fuel args strs rest) (fun l => Done (Argument i :: l))
              end
          | None =>
              match t with
              | Hash =>
                  match eat rest with
                  | p :: rest =>
                      match argument_of args p with
                      | Some i => let '(k, strs) := stringify strs i in obind (replacement fuel args strs (eat rest)) (fun l => Done (Stringify k :: l))
                      | None => Reported
                      end
                  | [] => Reported
                  end
              | HashHash =>
                  match eat rest with
                  | [] => Reported
                  | p :: rest => obind (replacement fuel args strs (eat rest)) (fun l => Done (Paste None (argument_of args p) p :: l))
                  end
              | _ => obind (replacement fuel args strs rest) (fun l => Done (add_token t l))
              end
          end
      end
  end.

(** preprocess.c 95-120 struct define_node, the parts that make up the definition. *)
Record define : Type := mkdefine { is_function_like : bool; is_varargs : bool; arguments : list name; replacement_list : list node }.

(** preprocess.c 3927-3979: function-like or not, and the parameters. *)
Definition parse_head (ts : list token) : outcome (bool * bool * list name * list token) :=
  match ts with
  | Open :: ts =>
      match eat ts with
      | Closed :: ts => Done (true, false, [], ts)
      | ts => obind (parameters (S (length ts)) [] ts) (fun '(args, va, ts) => Done (true, va, args, ts))
      end
  | ts => Done (false, false, [], ts)
  end.
(** preprocess.c 3981-4149 *)
Definition parse_rest (fl va : bool) (args : list name) (ts : list token) : outcome define :=
  match eat ts with
  | HashHash :: _ => Reported
  | ts => obind (replacement (S (length ts)) args [] ts) (fun l => Done (mkdefine fl va args l))
  end.
(** preprocess.c 3922-4149: the tokens behind the macro's name. *)
Definition parse_define (ts : list token) : outcome define :=
  obind (parse_head ts) (fun '(fl, va, args, ts) => parse_rest fl va args ts).

(** preprocess.c 4194-4222: compare two runs of tokens. *)
Fixpoint runs_match (fuel : nat) (a b : list token) : outcome bool :=
  match fuel with
  | O => Crash
  | S fuel =>
      match eat a, eat b with
      | [], [] => Done true
      | [], _ | _, [] => Done false
      | x :: a, y :: b => if atoms_match x y then runs_match fuel a b else Done false
      end
  end.
Definition index_eqb (a b : option nat) : bool :=
  match a, b with Some x, Some y => Nat.eqb x y | None, None => true | _, _ => false end.

(** preprocess.c 4188-4245: compare two replacement lists. *)
Fixpoint lists_match (a b : list node) : outcome bool :=
  match a, b with
  | [], [] => Done true
  | x :: a, y :: b =>
      obind
        match x, y with
        | Tokens ts, Tokens us => runs_match (S (length ts)) ts us
        | Argument i, Argument j => Done (Nat.eqb i j)
        | Stringify i, Stringify j => Done (Nat.eqb i j)
        | Paste p q _, Paste p' q' _ => Done (index_eqb p p' && index_eqb q q')
        | _, _ => Done false
        end
        (fun same => if same then lists_match a b else Done false)
  | _, _ => Done false
  end.

(** preprocess.c 4252-4273: compare the parameters. *)
Fixpoint arguments_match (a b : list name) : bool :=
  match a, b with
  | [], [] => true
  | x :: a, y :: b => names_match x y && arguments_match a b
  | _, _ => false
  end.

(** preprocess.c 4178-4275 [defines_are_equivalent]. *)
Definition equivalent (d redecl : define) : outcome bool :=
  obind (lists_match (replacement_list d) (replacement_list redecl)) (fun same =>
    Done (same && arguments_match (arguments redecl) (arguments d) && Bool.eqb (is_function_like redecl) (is_function_like d))).
