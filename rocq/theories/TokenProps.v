(** C10: tokenisation is lossless, greedy and terminates. *)
From Coq Require Import String.
From Verif Require Import Base StringProofs TokenModel TokenSpec TokenProofs.

Definition bytes (s : list Z) : Prop := Forall (fun c => 0 <= c < 256) s.
(** The text a list of tokens stands for. *)
Definition text_of (ts : list tok) : list Z := concat (map tk_text ts).

(** Every file is split into tokens: the loop ends, the tokens' texts make up the file, and none is empty. *)
Theorem C10_lossless : forall file, bytes file -> exists ts e, tokenize file = Done (ts, e) /\ text_of ts = file /\ Forall (fun t => tk_text t <> []) ts.
Proof.
  intros file B. destruct (tokens_produced (S (List.length file)) 1 1 file B (Nat.lt_succ_diag_r _)) as (ts & e & T & P).
  exists ts, e. split; [exact T|]. split; [exact (produced_texts _ _ _ _ _ P)|exact (produced_nonempty _ _ _ _ _ P)].
Qed.
Print Assumptions C10_lossless.

Lemma tokenize_produced : forall file ts e, bytes file -> tokenize file = Done (ts, e) -> produced 1 1 file ts e.
Proof.
  intros file ts e B T. destruct (tokens_produced (S (List.length file)) 1 1 file B (Nat.lt_succ_diag_r _)) as (ts' & e' & T' & P).
  unfold tokenize in T. rewrite T' in T. assert (ts' = ts /\ e' = e) as [-> ->] by (split; congruence). exact P.
Qed.

(** When no error is reported every token is what its type says, with the rest of the file behind it: in particular the
    longest punctuator, identifier, number or run of blanks that starts there. *)
Theorem C10_lexemes : forall file a t b, bytes file -> tokenize file = Done (a ++ t :: b, false) ->
  lexeme (tk_type t) (tk_text t) (text_of b) /\ tk_size t = List.length (tk_text t).
Proof. intros file a t b B T. apply and_comm. exact (produced_lexemes _ _ _ _ _ a t b (tokenize_produced _ _ _ B T) eq_refl eq_refl). Qed.
Print Assumptions C10_lexemes.

(** An error is reported only if, after some proper tokens, the file goes on with something that starts no token: a
    control character or a comment, string or character literal that does not end. *)
Theorem C10_errors : forall file ts, bytes file -> tokenize file = Done (ts, true) ->
  exists a t b, ts = a ++ t :: b /\ malformed (tk_type t) (tk_text t ++ text_of b)
    /\ forall a1 x a2, a = a1 ++ x :: a2 -> lexeme (tk_type x) (tk_text x) (text_of a2 ++ tk_text t ++ text_of b).
Proof. intros file ts B T. exact (produced_error _ _ _ _ _ (tokenize_produced _ _ _ B T) eq_refl). Qed.
Print Assumptions C10_errors.

(** Error or not, no token claims more than two bytes behind the end of the file (which the loader zeroes). *)
Theorem C10_bounds : forall file a t b e, bytes file -> tokenize file = Done (a ++ t :: b, e) -> (tk_size t <= List.length (tk_text t ++ text_of b) + 2)%nat.
Proof. intros file a t b e B T. exact (produced_sizes _ _ _ _ _ a t b (tokenize_produced _ _ _ B T) eq_refl). Qed.
Print Assumptions C10_bounds.

(** A token's line is one more than the number of newlines before it.
    Missing: files with a carriage return on its own, files with an error, and character literals with a newline in them. *)
Theorem C10_lines_partial : forall file a t b, bytes file -> normal_lines file -> tokenize file = Done (a ++ t :: b, false) ->
  (forall x, In x a -> tk_type x = Character_literal -> ~ In lf (tk_text x)) ->
  tk_line t = 1 + newlines (text_of a).
Proof. intros file a t b B N T L. exact (produced_lines _ _ _ _ _ a t b (tokenize_produced _ _ _ B T) eq_refl eq_refl N L). Qed.
Print Assumptions C10_lines_partial.

(** A token's column is one more than the number of bytes since the last newline.
    Missing: as for the lines, and what follows a string with a newline in it or a block comment without. *)
Theorem C10_columns_partial : forall file a t b, bytes file -> normal_lines file -> tokenize file = Done (a ++ t :: b, false) ->
  (forall x, In x a -> (tk_type x = Character_literal \/ tk_type x = String_literal -> ~ In lf (tk_text x))
     /\ (tk_type x = Comment -> starts (codes "/*") (tk_text x) -> In lf (tk_text x)) /\ ~ (exists p, tk_text x = p ++ [lf; cr])) ->
  tk_column t = 1 + Z.of_nat (since_newline (text_of a)).
Proof.
  intros file a t b B N T L. rewrite (produced_columns _ _ _ _ _ a t b (tokenize_produced _ _ _ B T) eq_refl eq_refl N L). unfold column_of. change (texts a) with (text_of a).
  destruct (in_dec Z.eq_dec lf (text_of a)) as [H|H]; [reflexivity|]. rewrite since_newline_none by exact H. reflexivity.
Qed.
Print Assumptions C10_columns_partial.

Definition file_of (lines : list string) : list Z := flat_map (fun l => codes l ++ [lf]) lines.
Definition quote : string := """"%string.
(** A file with every kind of token. *)
Definition case_file : list Z := file_of ["#define A(x) x>>=0x1'000ull \"; "  + 0b101 - 017 * 1.5e+3f / 0x1.8p3 // end"; "/* a"; " ** b */ u8" ++ quote ++ "a\" ++ quote ++ "b" ++ quote ++ " L'\''...5"]%string.
Example C10_case : bytes case_file /\ normal_lines case_file /\ exists ts, tokenize case_file = Done (ts, false) /\ List.length ts = 40%nat
  /\ (forall x, In x ts -> tk_type x = Character_literal -> ~ In lf (tk_text x))
  /\ (exists a b, ts = a ++ b /\ map tk_type b = [Comment; Whitespace; String_literal; Whitespace; Character_literal; Punct Dotdotdot; Base10_literal; Newline]
      /\ map tk_line b = [3; 4; 4; 4; 4; 4; 4; 4] /\ map tk_column b = [1; 9; 10; 18; 19; 24; 27; 28]).
Proof.
  split; [|split].
  - unfold bytes. apply Forall_forall. intros x H. vm_compute in H. repeat (destruct H as [<-|H]; [lia|]). destruct H.
  - intros a b E. exfalso. assert (In cr case_file) as H by (rewrite E; apply in_or_app; right; left; reflexivity). vm_compute in H. repeat (destruct H as [H|H]; [discriminate H|]). destruct H.
  - eexists. split; [vm_compute; reflexivity|]. split; [reflexivity|]. split.
    + intros x H. repeat (destruct H as [<-|H]; [intros Q; try discriminate Q; cbn; intuition discriminate|]). destruct H.
    + eexists (_ :: _ :: _ :: _ :: _ :: _ :: _ :: _ :: _ :: _ :: _ :: _ :: _ :: _ :: _ :: _ :: _ :: _ :: _ :: _ :: _ :: _ :: _ :: _ :: _ :: _ :: _ :: _ :: _ :: _ :: _ :: _ :: []). eexists. split; [reflexivity|]. auto.
Qed.

(** The line is wrong behind a character literal with a spliced line in it. *)
Theorem C10_lines_refuted : ~ (forall file a t b, bytes file -> normal_lines file -> tokenize file = Done (a ++ t :: b, false) -> tk_line t = 1 + newlines (text_of a)).
Proof.
  intro H. specialize (H [39; 92; 10; 97; 39; 59] [{| tk_type := Character_literal; tk_line := 1; tk_column := 1; tk_size := 5; tk_text := [39; 92; 10; 97; 39] |}] {| tk_type := Punct Semicolon; tk_line := 1; tk_column := 6; tk_size := 1; tk_text := [59] |} []).
  assert (1 = 2) as Q; [|discriminate Q]. apply H; [unfold bytes; repeat constructor; lia| |vm_compute; reflexivity].
  intros a b E. exfalso. assert (In cr [39; 92; 10; 97; 39; 59]) as C by (rewrite E; apply in_or_app; right; left; reflexivity). vm_compute in C. intuition discriminate.
Qed.
Print Assumptions C10_lines_refuted.

(** The column is wrong behind a block comment on one line. *)
Theorem C10_columns_refuted : ~ (forall file a t b, bytes file -> normal_lines file -> tokenize file = Done (a ++ t :: b, false) -> ~ In lf file -> tk_column t = 1 + Z.of_nat (List.length (text_of a))).
Proof.
  intro H. specialize (H [47; 42; 42; 47; 59] [{| tk_type := Comment; tk_line := 1; tk_column := 1; tk_size := 4; tk_text := [47; 42; 42; 47] |}] {| tk_type := Punct Semicolon; tk_line := 1; tk_column := 3; tk_size := 1; tk_text := [59] |} []).
  assert (3 = 5) as Q; [|discriminate Q]. apply H; [unfold bytes; repeat constructor; lia| |vm_compute; reflexivity|cbn; intuition discriminate].
  intros a b E. exfalso. assert (In cr [47; 42; 42; 47; 59]) as C by (rewrite E; apply in_or_app; right; left; reflexivity). vm_compute in C. intuition discriminate.
Qed.
Print Assumptions C10_columns_refuted.

(** C splices lines before it looks for comments (C11 5.1.1.2), so a line comment that ends with a backslash goes on; here
    it ends and what follows is code. *)
Theorem C10_comment_refuted : ~ (forall file a t b c, bytes file -> tokenize file = Done (a ++ t :: b, false) -> tk_type t = Comment -> starts (codes "//") (tk_text t) -> text_of b <> lf :: c \/ ~ exists body, tk_text t = body ++ [92]).
Proof.
  intro H. specialize (H [47; 47; 92; 10; 59] [] {| tk_type := Comment; tk_line := 1; tk_column := 1; tk_size := 3; tk_text := [47; 47; 92] |}
    [{| tk_type := Newline; tk_line := 1; tk_column := 4; tk_size := 1; tk_text := [10] |}; {| tk_type := Punct Semicolon; tk_line := 2; tk_column := 1; tk_size := 1; tk_text := [59] |}] [59]).
  destruct H as [H|H]; [unfold bytes; repeat constructor; lia|vm_compute; reflexivity|reflexivity|exists [92]; reflexivity|apply H; reflexivity|apply H; exists [47; 47]; reflexivity].
Qed.
Print Assumptions C10_comment_refuted.

(** An unterminated block comment overruns the file. *)
Theorem C10_overrun_refuted : ~ (forall file a t b e, bytes file -> tokenize file = Done (a ++ t :: b, e) -> (tk_size t <= List.length (tk_text t ++ text_of b))%nat).
Proof.
  intro H. specialize (H [47; 42] [] {| tk_type := Comment; tk_line := 1; tk_column := 1; tk_size := 4; tk_text := [47; 42] |} [] true).
  assert (4 <= 2)%nat as Q; [|lia]. apply H; [unfold bytes; repeat constructor; lia|vm_compute; reflexivity].
Qed.
Print Assumptions C10_overrun_refuted.
