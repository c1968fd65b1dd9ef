(** Model of the code the parser generates for statements (parse.c 9031-9820, main.c 3395-3437) and of
    what it means (emit_x64.c 3656-3836). 

    Left out: declarations, asm blocks, line information, warnings, [#pragma pack], and what
    the parser does about the tokens: the statement is given as a tree.  Names of labels are numbers. *)
From Coq Require Import List ZArith Bool.
From Verif Require Import Base IntTypes CSpec IntModel LowerSpec LowerModel BranchSpec BranchModel StmtSpec.
Import ListNotations.
Open Scope Z_scope.

(** [struct ir_jump_node], [struct ir_switch], [struct ir_case] (ir.h) and the instructions of expressions.  An
    [ir_case] belongs to a switch (the pointers of its case list); here that is the number of the
    switch's break label, which no other switch has.  [Goto]: a jump whose label is filled in at the end of the function. *)
Inductive instr : Set :=
| Plain (i : ir)
| Goto (name : nat)
| Switch (id : nat) (cases : list Z) (default : nat)
| Case (id : nat) (value : Z)
| Return.

(* ------------------------------------------------------------------ *)
(** ** Meaning *)

(** Where a label, a case is placed (emit_x64.c 3731-3740, 3830-3836, 4688-4690). *)
Definition is_label (n : nat) (i : instr) : bool := match i with Plain (Jump_label k) => Nat.eqb k n | _ => false end.
Definition is_case (id : nat) (v : Z) (i : instr) : bool :=
  match i with Case j w => Nat.eqb j id && (w =? v) | _ => false end.
Fixpoint position (f : instr -> bool) (p : list instr) : option nat :=
  match p with
  | [] => None
  | i :: p => if f i then Some O else option_map S (position f p)
  end.

Inductive mresult : Type :=
| Go (pc : nat) (s : list operand) (m : memory)
| Result (r : option operand) (m : memory)
| Past_end (m : memory)                         (* falls into the epilog without a value *)
| Wrong.

Section Run.
Variable var_bits : nat -> Z.
Variable returns_value : bool.
Variable p : list instr.

Definition jump_to (f : instr -> bool) (s : list operand) (m : memory) : mresult :=
  match position f p with Some pc => Go pc s m | None => Wrong end.

(** emit_x64.c 3767-3829: the operand is compared with each value in its own size, in the order of the
    case list. *)
Fixpoint switch_jump (id : nat) (cases : list Z) (default : nat) (n w : Z) (s : list operand) (m : memory) : mresult :=
  match cases with
  | [] => jump_to (is_label default) s m
  | v :: cases => if wrapu n v =? w then jump_to (is_case id v) s m else switch_jump id cases default n w s m
  end.

(** The instruction at [pc]. *)
Definition mstep (pc : nat) (s : list operand) (m : memory) : mresult :=
  match nth_error p pc with
  | None => if Nat.eqb pc (length p) then Past_end m else Wrong
  | Some (Plain (Jump_label _)) => Go (S pc) s m
  | Some (Plain (Jump n)) => jump_to (is_label n) s m
  | Some (Plain (Jump_if on_true n)) =>
      match s with
      | a :: s => if Bool.eqb (negb (contents m a =? 0)) on_true then jump_to (is_label n) s m else Go (S pc) s m
      | [] => Wrong
      end
  | Some (Plain i) =>
      match step var_bits i s m with
      | Next (s, m) => Go (S pc) s m
      | _ => Wrong
      end
  | Some (Goto _) => Wrong
  | Some (Switch id cases default) =>
      match s with
      | a :: s => switch_jump id cases default (operand_bits var_bits a) (contents m a) s m
      | [] => Wrong
      end
  | Some (Case _ _) => Go (S pc) s m
  | Some Return =>
      if returns_value then match s with a :: _ => Result (Some a) m | [] => Wrong end
      else Result None m
  end.

Fixpoint msteps (n : nat) (r : mresult) : mresult :=
  match n with
  | O => r
  | S n => match r with Go pc s m => msteps n (mstep pc s m) | _ => r end
  end.
End Run.

(* ------------------------------------------------------------------ *)
(** ** Code generation *)

(** [context->current_break_label], [current_continue_label], [current_switch_on] and
    [current_switch]; the labels are only used inside a scope with the flag
    (parse.c 9344-9387), which is when they are set. *)
Record inside : Set := mkinside { break_label : option nat; continue_label : option nat; switch_on : option (ity * nat) }.
Definition outermost : inside := mkinside None None None.
Definition in_loop (b c : nat) (x : inside) : inside := mkinside (Some b) (Some c) (switch_on x).
Definition in_switch (b : nat) (t : ity) (x : inside) : inside := mkinside (Some b) (continue_label x) (Some (t, b)).

(** The counters, [current_switch->case_list], [current_switch->default_jump_label] and
    [context->label_list]. *)
Record flow : Set := mkflow { counts : counters; cases : list Z; default : option nat; names : list (nat * nat) }.
Definition with_counts (c : counters) (st : flow) : flow := mkflow c (cases st) (default st) (names st).
Definition label_taken (st : flow) : flow := with_counts (new_label (counts st)) st.
Definition fresh (st : flow) : nat := next_label (counts st).

Section Lower.
Variable first : nat.
Variable ty : nat -> ity.
Variable rt : option ity.

Definition plain (c : list ir) : list instr := map Plain c.

(** An expression with its code at the end of the code generated so far. *)
Definition with_expr (e : bexpr) (st : flow) (f : expr -> flow -> outcome (list instr * flow)) : outcome (list instr * flow) :=
  obind (generate first ty e (counts st)) (fun '(q, c) => f q (with_counts c st)).

(** parse.c 9790-9797, 9193-9198 and LowerModel [lower_assignment]. *)
Definition lower_effect (f : effect) (st : flow) : outcome (list instr * flow) :=
  match f with
  | Evaluate e => with_expr e st (fun q st => Done (plain (emit q ++ [Pop_expression]), st))
  | Assign x e => with_expr e st (fun q st => Done (plain (lower_assignment ty x q ++ [Pop_expression]), st))
  end.

(** parse.c 9455-9470: a case label is cast to the type of the operand of the switch; the value kept is its 64 bits. *)
Definition fold_case (t : ity) (l : lit) : Z := integer_literal_as_u64 (push_cast t l).

(** parse.c 9031-9602 [parse_statement] *)
Fixpoint lower_stmt (s : stmt) (x : inside) (st : flow) : outcome (list instr * flow) :=
  match s with
  | SSkip => Done ([], st)
  | SEffect f => lower_effect f st
  | SSeq a b =>                                                     (* 9544-9552, 9801-9820 *)
      obind (lower_stmt a x st) (fun '(a, st) => obind (lower_stmt b x st) (fun '(b, st) => Done (a ++ b, st)))
  | SIf e a =>                                                      (* 9049-9116 *)
      let no := fresh st in
      with_expr e (label_taken st) (fun q st =>
      obind (lower_stmt a x st) (fun '(a, st) =>
      Done (plain (emit q ++ [Jump_if false no]) ++ a ++ plain [Jump_label no], st)))
  | SIfElse e a b =>
      let no := fresh st in
      with_expr e (label_taken st) (fun q st =>
      obind (lower_stmt a x st) (fun '(a, st) =>
      let done := fresh st in
      obind (lower_stmt b x (label_taken st)) (fun '(b, st) =>
      Done (plain (emit q ++ [Jump_if false no]) ++ a ++ plain [Jump done; Jump_label no] ++ b ++ plain [Jump_label done], st))))
  | SWhile e a =>                                                   (* 9227-9281 *)
      let again := fresh st in
      let out := S (fresh st) in
      with_expr e (label_taken (label_taken st)) (fun q st =>
      obind (lower_stmt a (in_loop out again x) st) (fun '(a, st) =>
      Done (plain ([Jump_label again] ++ emit q ++ [Jump_if false out]) ++ a ++ plain [Jump again; Jump_label out], st)))
  | SDo a e =>                                                      (* 9282-9342 *)
      let loop := fresh st in
      let again := S (fresh st) in
      let out := S (S (fresh st)) in
      obind (lower_stmt a (in_loop out again x) (label_taken (label_taken (label_taken st)))) (fun '(a, st) =>
      with_expr e st (fun q st =>
      Done (plain [Jump_label loop] ++ a ++ plain ([Jump_label again] ++ emit q ++ [Jump_if true loop; Jump_label out]), st)))
  | SFor c f a =>                                                   (* 9137-9208; no condition: the literal 1 *)
      let loop := fresh st in
      let again := S (fresh st) in
      let out := S (S (fresh st)) in
      let e := match c with Some e => e | None => BLit S32 1 end in
      with_expr e (label_taken (label_taken (label_taken st))) (fun q st =>
      obind (lower_stmt a (in_loop out again x) st) (fun '(a, st) =>
      obind (match f with Some f => lower_effect f st | None => Done ([], st) end) (fun '(f, st) =>
      Done (plain ([Jump_label loop] ++ emit q ++ [Jump_if false out]) ++ a ++ plain [Jump_label again] ++ f ++
            plain [Jump loop; Jump_label out], st))))
  | SBreak => match break_label x with Some n => Done (plain [Jump n], st) | None => Reported end
  | SContinue => match continue_label x with Some n => Done (plain [Jump n], st) | None => Reported end
  | SSwitch e a =>                                                  (* 9388-9442 *)
      with_expr e st (fun q st =>
      let q := promotion_cast q in
      let out := fresh st in
      obind (lower_stmt a (in_switch out (resolved_type q) x) (mkflow (new_label (counts st)) [] None (names st))) (fun '(a, st') =>
      Done (plain (emit q) ++ [Switch out (cases st') (match default st' with Some d => d | None => out end)] ++ a ++
            plain [Jump_label out], mkflow (counts st') (cases st) (default st) (names st'))))
  | SCase t p a =>                                                  (* 9443-9486 *)
      match switch_on x with
      | None => Reported
      | Some (u, id) =>
          let v := fold_case u (mklit t p) in
          if existsb (fun w => w =? v) (cases st) then Reported
          else obind (lower_stmt a x (mkflow (counts st) (cases st ++ [v]) (default st) (names st))) (fun '(a, st) =>
               Done ([Case id v] ++ a, st))
      end
  | SDefault a =>                                                   (* 9487-9512 *)
      match switch_on x, default st with
      | Some _, None =>
          let n := fresh st in
          obind (lower_stmt a x (mkflow (new_label (counts st)) (cases st) (Some n) (names st))) (fun '(a, st) =>
          Done (plain [Jump_label n] ++ a, st))
      | _, _ => Reported
      end
  | SReturn None => match rt with None => Done ([Return], st) | Some _ => Reported end     (* 9517-9543 *)
  | SReturn (Some e) =>
      match rt with
      | None => Reported
      | Some t => with_expr e st (fun q st => Done (plain (emit (cast_expr t q)) ++ [Return], st))
      end
  | SGoto n => Done ([Goto n], st)                                  (* 9559-9570 *)
  | SLabel n a =>                                                   (* 9571-9602 *)
      if existsb (fun y => Nat.eqb (fst y) n) (names st) then Reported
      else let k := fresh st in
           obind (lower_stmt a x (mkflow (new_label (counts st)) (cases st) (default st) (names st ++ [(n, k)]))) (fun '(a, st) =>
           Done (plain [Jump_label k] ++ a, st))
  end.

(** main.c 3405-3421: the labels of the gotos. *)
Definition label_of (l : list (nat * nat)) (n : nat) : option nat :=
  option_map snd (find (fun y => Nat.eqb (fst y) n) l).
Definition resolve (l : list (nat * nat)) (i : instr) : instr :=
  match i with
  | Goto n => match label_of l n with Some k => Plain (Jump k) | None => i end
  | _ => i
  end.
Definition resolved (i : instr) : bool := match i with Goto _ => false | _ => true end.

(** main.c 3395-3437: the body; [main] of type int returns 0 at the end. *)
Definition lower_function (is_main : bool) (body : stmt) : outcome (list instr * counters) :=
  obind (lower_stmt body outermost (mkflow (mkcounters 0 []) [] None [])) (fun '(code, st) =>
  let code := map (resolve (names st)) code in
  if forallb resolved code
  then Done (code ++ match is_main, rt with
                     | true, Some S32 => [Plain (Integer_literal (mklit S32 0)); Return]
                     | _, _ => []
                     end, counts st)
  else Reported).
End Lower.
