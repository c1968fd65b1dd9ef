(** C24: the command line. *)
From Verif Require Import Base CmdModel CmdSpec CmdProofs.

(** For every command line (a C string, so without zero bytes) the arguments found are the ones the
    grammar gives; neither the writing nor the reading of the buffer leaves it. *)
Theorem C24_parses_by_the_rules : forall cmd, Forall (fun c => c <> 0) cmd ->
  exists args, windows_parse_command_line cmd = Done args /\ line cmd args.
Proof. exact sound. Qed.
Print Assumptions C24_parses_by_the_rules.

(** The rules give one reading only, and it is found. *)
Theorem C24_only_reading : forall cmd args, Forall (fun c => c <> 0) cmd ->
  line cmd args -> windows_parse_command_line cmd = Done args.
Proof. intros. apply complete; auto. Qed.
Print Assumptions C24_only_reading.

Theorem C24_quoting_roundtrip : forall args, Forall (Forall (fun c => c <> 0)) args ->
  windows_parse_command_line (join args) = Done args.
Proof. intros args N. apply complete; [apply join_line|apply nz_join; auto]. Qed.
Print Assumptions C24_quoting_roundtrip.

(** The buffer: at most one byte more than the line is written. *)
Theorem C24_buffer : forall fuel cmd n out, loop fuel cmd false false = Done (n, out) -> (length out <= length cmd + 1)%nat.
Proof. intros. eapply loop_bound; eauto. Qed.
Print Assumptions C24_buffer.

(** four backslashes and a quote open a quoted part after two backslashes (windows.c 846 claims otherwise) *)
Example cmd_example :
  windows_parse_command_line [97;92;92;92;92;34;98;32;99;34;32;100;32;101] = Done [[97;92;92;98;32;99];[100];[101]] /\
  (* an argument ending in backslash and quote, and an empty argument *)
  join [[97;92;34];[]] = [34;97;92;92;92;34;34;32;34;34].
Proof. split; vm_compute; reflexivity. Qed.

(** The program name is not read by a rule of its own, although rule 2 in windows.c 829-830 says so:
    a quoted program name ending in a backslash swallows the following argument. *)
Example program_name_not_special :
  windows_parse_command_line [34;67;58;92;34;32;120] = Done [[67;58;34;32;120]].
Proof. vm_compute. reflexivity. Qed.
