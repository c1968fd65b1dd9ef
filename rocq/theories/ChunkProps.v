(** C43: a file is split at global scope only.  Missing for the full statement: files with
    `#pragma pack`. *)
From Verif Require Import Base ChunkModel ChunkSpec ChunkProofs.

(** Any file at all: the splitter ends, and either reports an error or returns packages that are not
    empty and together, in order, are the file. *)
Theorem C43_covers_partial : forall file, match chunks file with Done cs => concat cs = file /\ Forall (fun c => c <> []) cs | Reported => True | Crash => False end.
Proof. intro file. apply (chunks_cover (S (length file)) file). lia. Qed.
Print Assumptions C43_covers_partial.

(** A file whose brackets match is never rejected, unless it uses `__func__`. *)
Theorem C43_accepts_partial : forall file, nested file -> ~ In Func_name file -> exists cs, chunks file = Done cs.
Proof. intros file N F. destruct (chunks_ok file N) as [(_ & I)|(cs & E & _)]; [contradiction|exists cs; exact E]. Qed.
Print Assumptions C43_accepts_partial.

(** No cut falls inside of braces or square brackets. *)
Theorem C43_never_in_braces_partial : forall file cs a b, nested file -> chunks file = Done cs -> cs = a ++ b ->
  exists st, open_after [] (concat a) = Some st /\ parens_only st.
Proof.
  intros file cs a b N E EA. destruct (chunks_ok file N) as [(R & _)|(cs' & E' & C & _)]; [congruence|]. rewrite E in E'. injection E' as <-. destruct (C a b EA) as (st & S1 & S2 & _). exists st. auto.
Qed.
Print Assumptions C43_never_in_braces_partial.

(** And none between parentheses either, where C has no semicolon and no function body there: all
    brackets are closed at every cut. *)
Theorem C43_balanced_partial : forall file cs a b, nested file -> calm file -> chunks file = Done cs -> cs = a ++ b -> open_after [] (concat a) = Some [].
Proof.
  intros file cs a b N K E EA. destruct (chunks_ok file N) as [(R & _)|(cs' & E' & C & _)]; [congruence|]. rewrite E in E'. injection E' as <-. destruct (C a b EA) as (st & S1 & _ & S3). rewrite (S3 K) in S1. exact S1.
Qed.
Print Assumptions C43_balanced_partial.

(** Conversely no two declarations stay together: a semicolon outside of all brackets ends its package. *)
Theorem C43_separates_partial : forall file cs a c b x y, nested file -> chunks file = Done cs -> cs = a ++ c :: b ->
  c = x ++ Semicolon :: y -> open_after [] (concat a ++ x) = Some [] -> y = [].
Proof.
  intros file cs a c b x y N E EA EX O. destruct (chunks_ok file N) as [(R & _)|(cs' & E' & _ & C)]; [congruence|]. rewrite E in E'. injection E' as <-. exact (proj1 (C a c b EA) x y EX O).
Qed.
Print Assumptions C43_separates_partial.

(** Every package but the last ends in a semicolon or a closing brace. *)
Theorem C43_ends_partial : forall file cs a c b, nested file -> chunks file = Done cs -> cs = a ++ c :: b -> b <> [] -> exists m, c = m ++ [Semicolon] \/ c = m ++ [Closes Curly].
Proof.
  intros file cs a c b N E EA NB. destruct (chunks_ok file N) as [(R & _)|(cs' & E' & _ & C)]; [congruence|]. rewrite E in E'. injection E' as <-. destruct (proj2 (C a c b EA)) as [H|H]; [contradiction|exact H].
Qed.
Print Assumptions C43_ends_partial.

(** `struct s { int a; } x = { 1, (2) }, y[3];  int f(int a) { a; __func__ }  int (struct { int a; } b) (int);` *)
Definition case : list token :=
  [Tag; Identifier; Opens Curly; Basic; Identifier; Semicolon; Closes Curly; Identifier; Equals; Opens Curly; Other; Comma; Opens Paren; Other; Closes Paren; Closes Curly; Comma; Identifier; Opens Index; Other; Closes Index; Semicolon;
   Basic; Identifier; Opens Paren; Basic; Identifier; Closes Paren; Opens Curly; Identifier; Semicolon; Func_name; Closes Curly;
   Basic; Opens Paren; Tag; Opens Curly; Basic; Identifier; Semicolon; Closes Curly; Identifier; Closes Paren; Opens Paren; Basic; Closes Paren; Semicolon].
Lemma splits_at : forall (A : Type) (l a : list A) t b, l = a ++ t :: b -> nth_error l (length a) = Some t /\ a = firstn (length a) l.
Proof. intros A l a t b ->. split; [rewrite nth_error_app2 by lia; rewrite Nat.sub_diag; reflexivity|]. rewrite firstn_app, Nat.sub_diag, firstn_all. cbn. symmetry. apply app_nil_r. Qed.
Example C43_case : nested case /\ calm case /\ exists a b c, chunks case = Done [a; b; c] /\ length a = 22%nat /\ length b = 11%nat /\ length c = 14%nat.
Proof.
  split; [vm_compute; reflexivity|]. split; [split|].
  - intros a b st E O P. apply splits_at in E as (E & EA). rewrite EA in O. destruct (Nat.lt_ge_cases (length a) (length case)) as [L|L]; [|apply nth_error_None in L; congruence].
    revert E O. generalize dependent (length a). intros n _ L E O. do 47 (destruct n as [|n]; [try discriminate E; vm_compute in O; injection O as <-; first [reflexivity|inversion P as [|? ? Q R]; try discriminate Q; inversion R as [|? ? Q2 _]; discriminate Q2]|]). cbn in L. lia.
  - intros a b st E O P. apply splits_at in E as (E & EA). rewrite EA in O |- *. destruct (Nat.lt_ge_cases (length a) (length case)) as [L|L]; [|apply nth_error_None in L; congruence].
    revert E O. generalize dependent (length a). intros n _ L E O. do 47 (destruct n as [|n]; [try discriminate E; vm_compute in O; injection O as <-; first [left; reflexivity|right; left; vm_compute; reflexivity|right; right; exists (firstn 35 case ++ []); left; vm_compute; reflexivity|right; right; exists (firstn 34 case ++ []); left; vm_compute; reflexivity]|]). cbn in L. lia.
  - eexists. eexists. eexists. vm_compute. repeat split; reflexivity.
Qed.

(** Without the second hypothesis a cut can fall between parentheses: `int ( ; ) ;`. *)
Example C43_not_calm : nested [Basic; Opens Paren; Semicolon; Closes Paren; Semicolon] /\ chunks [Basic; Opens Paren; Semicolon; Closes Paren; Semicolon] = Done [[Basic; Opens Paren; Semicolon]; [Closes Paren; Semicolon]].
Proof. split; vm_compute; reflexivity. Qed.
