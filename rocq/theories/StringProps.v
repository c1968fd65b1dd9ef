(** C11: literals are converted to the execution character set as C says. *)
From Verif Require Import Base StringModel StringSpec StringProofs UtilSpec.

(** Adjacent literals written as C allows (characters in UTF-8, simple, octal and hexadecimal escapes in range,
    universal character names, spliced lines) become the units C prescribes, one literal after the other.
    Missing: the characters above U+FFFF for which the UTF-16 encoder is wrong ([encodable]). *)
Theorem C11_encoding_partial : forall k literals,
  Forall (Forall (valid k)) literals -> Forall (Forall (encodable k)) literals -> Forall separated literals ->
  convert k (map (flat_map source) literals) = Done (flat_map (flat_map (meaning k)) literals).
Proof. exact convert_ok. Qed.
Print Assumptions C11_encoding_partial.

(** UTF-8 and UTF-32 literals are right without exception. *)
Theorem C11_encoding : forall k literals, k <> Utf16 ->
  Forall (Forall (valid k)) literals -> Forall separated literals ->
  convert k (map (flat_map source) literals) = Done (flat_map (flat_map (meaning k)) literals).
Proof.
  intros k literals K V S. apply convert_ok; try assumption. apply Forall_forall. intros es _. apply Forall_forall. intros e _. destruct e; cbn [encodable]; try exact I; intro Q; congruence.
Qed.
Print Assumptions C11_encoding.

(** "n<tab as \t><octal 101><hex 7f><U+20AC>\<newline>" "<U+1F600 as \U>": the hypotheses are met. *)
Definition case_literals : list (list element) :=
  [[Plain 110; Simple 116; Octal [1; 0; 1]; Hex [(false, 7); (true, 15)]; Plain 8364; Splice Lf]; [Ucn true [(false, 0); (false, 0); (false, 0); (false, 1); (true, 15); (false, 6); (false, 0); (false, 0)]; Plain 49]].
Example C11_case : Forall (Forall (valid Utf8)) case_literals /\ Forall separated case_literals
  /\ convert Utf8 (map (flat_map source) case_literals) = Done [110; 9; 65; 127; 226; 130; 172; 240; 159; 152; 128; 49].
Proof.
  split; [|split].
  - repeat constructor; cbn; try lia; try discriminate; unfold scalar, hex_digit; cbn; lia.
  - repeat constructor; cbn; try lia; try discriminate; intros; try discriminate. intro Q. injection Q as Q. destruct d as [b d]. unfold hex_digit in *. unfold hex_char in Q. cbn [fst snd] in *. destruct (d <? 10), b; lia.
  - vm_compute. reflexivity.
Qed.

(** The converted text fits the buffer of one unit per byte of source: with any larger buffer the result is the
    same, for every text, well-formed or not. *)
Theorem C11_buffer : forall k cap strings, Forall bytes strings -> (length (concat strings) <= cap)%nat ->
  convert k strings = convert_with cap k strings /\ forall us, convert k strings = Done us -> (length us <= length (concat strings))%nat.
Proof. exact convert_capacity. Qed.
Print Assumptions C11_buffer.

(** An octal or hexadecimal escape that does not fit a unit is never accepted, wherever it stands. *)
Theorem C11_range : forall k before es e rest after us,
  Forall (Forall (valid k)) before -> Forall (Forall (encodable k)) before -> Forall separated before ->
  Forall (valid k) es -> Forall (encodable k) es -> separated (es ++ [e]) -> too_large k e -> follows e rest -> bytes rest ->
  convert k (map (flat_map source) before ++ (flat_map source es ++ source e ++ rest) :: after) <> Done us.
Proof. exact reported_ok. Qed.
Print Assumptions C11_range.
(** '\400' does not fit a byte; \x10000000000000000 (2 ^ 64) fits nothing. *)
Example C11_range_case : too_large Utf8 (Octal [4; 0; 0]) /\ too_large Utf32 (Hex ((false, 1) :: repeat (false, 0) 16)) /\ follows (Hex ((false, 1) :: repeat (false, 0) 16)) [32]
  /\ convert Utf8 [source (Octal [4; 0; 0])] = Reported.
Proof.
  assert (Z16 : Forall hex_digit ((false, 1) :: repeat (false, 0) 16)) by (repeat constructor; cbn; lia).
  repeat split; try exact Z16; try discriminate; try (cbn; lia); try (repeat constructor; lia).
  intros [b d] H Q. injection Q as Q. unfold hex_digit in H. unfold hex_char in Q. cbn [fst snd] in *. destruct (d <? 10), b; lia.
Qed.

(** A character that is not complete in UTF-8 is never accepted where characters are decoded. *)
Theorem C11_truncated : forall k before es t after us, k <> Utf8 ->
  Forall (Forall (valid k)) before -> Forall (Forall (encodable k)) before -> Forall separated before ->
  Forall (valid k) es -> Forall (encodable k) es -> separated es -> truncated t -> bytes t ->
  convert k (map (flat_map source) before ++ (flat_map source es ++ t) :: after) <> Done us.
Proof. exact truncated_ok. Qed.
Print Assumptions C11_truncated.
Example C11_truncated_case : truncated [195; 65] /\ convert Utf16 [[65; 195; 65]] = Reported.
Proof.
  split; [|vm_compute; reflexivity]. exists 195, [65]. repeat split; try lia. intros cs r' E L F. change (following 195) with 1%nat in L. destruct cs as [|c [|]]; try discriminate. injection E as <- E. inversion F. subst. lia.
Qed.

(** In UTF-16 the second surrogate is wrong for half of the characters above U+FFFF: U+10000 becomes D800 DD00. *)
Theorem C11_surrogate_refuted : ~ (forall literals, Forall (Forall (valid Utf16)) literals -> Forall separated literals ->
  convert Utf16 (map (flat_map source) literals) = Done (flat_map (flat_map (meaning Utf16)) literals)).
Proof.
  intro H. specialize (H [[Plain 65536]]). assert (E : convert Utf16 (map (flat_map source) [[Plain 65536]]) = Done [55296; 56576]) by (vm_compute; reflexivity). rewrite E in H.
  assert (Q : flat_map (flat_map (meaning Utf16)) [[Plain 65536]] = [55296; 56320]) by (vm_compute; reflexivity). rewrite Q in H. discriminate H.
  - repeat constructor; cbn; lia.
  - repeat constructor.
Qed.
Print Assumptions C11_surrogate_refuted.

(** Not every text is converted or rejected: some make the compiler fail. *)
Theorem C11_no_fault_refuted : ~ (forall k strings, Forall bytes strings -> convert k strings <> Crash).
Proof. intro H. apply (H Utf32 [[254; 128; 128; 128; 128; 128; 128]]); [repeat constructor; lia|vm_compute; reflexivity]. Qed.
Print Assumptions C11_no_fault_refuted.
(** u"\U00110000" fails an assertion instead of being rejected. *)
Theorem C11_codepoint_refuted : ~ (forall strings, Forall bytes strings -> (forall s b, In s strings -> In b s -> b < 128) -> convert Utf16 strings <> Crash).
Proof.
  intro H. apply (H [[92; 85; 48; 48; 49; 49; 48; 48; 48; 48]]); [repeat constructor; lia| |vm_compute; reflexivity].
  intros s b [<-|[]] B. cbn in B. repeat (destruct B as [<-|B]; [lia|]). destruct B.
Qed.
Print Assumptions C11_codepoint_refuted.

(** Source bytes that are not UTF-8 are accepted: U"<80>" is the unit 0. *)
Theorem C11_utf8_refuted : ~ (forall strings us, convert Utf32 strings = Done us -> exists cs, Forall scalar cs /\ concat strings = flat_map utf8 cs).
Proof.
  intro H. destruct (H [[128]] [0]) as (cs & S & E); [vm_compute; reflexivity|]. cbn [concat app] in E. destruct cs as [|c cs]; [discriminate|]. inversion S as [|? ? [R _] _]. subst. cbn [flat_map] in E. unfold utf8 in E.
  apply (f_equal (hd 0)) in E. cbn [hd] in E. destruct (Z.ltb_spec c 128); [cbn [app hd] in E; lia|]. destruct (Z.ltb_spec c 2048); [cbn [app hd] in E; assert (0 <= c / 64) by (apply Z.div_pos; lia); lia|].
  destruct (Z.ltb_spec c 65536); cbn [app hd] in E; [assert (0 <= c / 4096) by (apply Z.div_pos; lia)|assert (0 <= c / 262144) by (apply Z.div_pos; lia)]; lia.
Qed.
Print Assumptions C11_utf8_refuted.
