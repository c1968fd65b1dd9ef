(** What C36 asks for. *)
From Verif Require Import Base LoadModel.

Section Spec.
Variable entry_path : nat -> nat.
(** The path a request is for. *)
Definition wanted (r : request) : nat := match r with Open p => p | Include e => entry_path e end.
Definition asked (cs : list choice) : list nat := flat_map (fun c => match c with Calls _ r => [wanted r] | Steps _ => [] end) cs.
End Spec.

(** The paths that were tokenised, in order. *)
Definition tokenised (es : list event) : list nat := flat_map (fun e => match e with Tokenise _ _ p => [p] | _ => [] end) es.
