(** C25: library archives. *)
From Verif Require Import Base ArModel ArSpec ArProofs.

(** No file whatsoever makes the parser read outside of it. *)
Theorem C25_parse_stays_inside : forall file, Forall byte file -> ar_parse_file file <> Crash.
Proof. intros file B. exact (proj1 (parse_safe file B)). Qed.
Print Assumptions C25_parse_stays_inside.

(** A lookup reads outside only if the size announced by a member ends behind the file, by at most
    the 60 bytes of the header the check in ar.c 366 forgets.
    Missing for the full claim: that this does not happen either; it does, see below. *)
Theorem C25_lookup_stays_inside_partial : forall file lib name, Forall byte file ->
  ar_parse_file file = Done (Some lib) ->
  (forall off size, 0 <= off -> off + 60 <= Z.of_nat (length file) ->
     string_to_u64 (string_strip_whitespace (firstn 10 (skipn (Z.to_nat (off + 48)) file))) = Some size ->
     off + size <= Z.of_nat (length file) -> off + 60 + size <= Z.of_nat (length file)) ->
  exists r, ar_lookup_symbol lib name = Done r.
Proof.
  intros file lib name B P G. destruct (proj2 (parse_safe file B) lib P) as [E OK].
  destruct (lookup_overrun lib name OK) as [R|(off & size & O & H & S & L)]; auto.
  rewrite E in *. exfalso. unfold zlen in *. pose proof (G off size O H S ltac:(lia)). lia.
Qed.
Print Assumptions C25_lookup_stays_inside_partial.

Definition ex_header (name digits : list Z) : list Z :=
  name ++ repeat 32 (16 - length name) ++ repeat 48 32 ++ digits ++ repeat 32 (10 - length digits) ++ [96; 10].

(** The first linker member is empty, the index has one symbol [f] in the member at 144, and the file
    ends with the header of this member, which announces 20 bytes. *)
Definition truncated : list Z :=
  archive (ex_header [47] [48]) [] (ex_header [47] [49; 54]) (symbol_index [144] [([102], 1)]) (ex_header [102] [50; 48]).

(** Lines 133-137 want a valid third member, so the parser alone would reject this file; the
    long-name member in between makes it accepted. *)
Definition truncated_accepted : list Z :=
  archive (ex_header [47] [48]) [] (ex_header [47] [49; 54]) (symbol_index [204] [([102], 1)])
    (ex_header [47; 47] [48] ++ ex_header [102] [50; 48]).

Theorem C25_lookup_reads_outside_refuted : exists file lib name, Forall byte file /\
  ar_parse_file file = Done (Some lib) /\ ar_lookup_symbol lib name = Crash.
Proof.
  exists truncated_accepted.
  destruct (ar_parse_file truncated_accepted) as [[lib|]| |] eqn:E; try (vm_compute in E; discriminate E).
  exists lib, [102]. split; [|split; [reflexivity|]].
  - apply Forall_forall. intros c I. assert (F : forallb (fun c => (0 <=? c) && (c <? 256)) truncated_accepted = true) by (vm_compute; reflexivity).
    rewrite forallb_forall in F. specialize (F c I). unfold byte. lia.
  - vm_compute in E. injection E as <-. vm_compute. reflexivity.
Qed.
Print Assumptions C25_lookup_reads_outside_refuted.

(** In a well-formed archive every symbol is found where it is, and no other. *)
Theorem C25_symbol_found : forall h1 first h2 members offsets symbols,
  let index := symbol_index offsets symbols in
  let file := archive h1 first h2 index members in
  header h1 [47] (Z.of_nat (length first)) -> header h2 [47] (Z.of_nat (length index)) ->
  (members = [] \/ exists h name data rest, members = h ++ data ++ rest /\ header h name (Z.of_nat (length data))) ->
  Forall byte file -> Forall (fun o => 0 <= o < 2 ^ 32) offsets ->
  Forall (fun s => Forall (fun c => c <> 0) (fst s) /\ 0 <= snd s < 65536) symbols ->
  Z.of_nat (length file) < 2 ^ 32 -> symbols <> [] -> in_order (map fst symbols) ->
  exists lib, ar_parse_file file = Done (Some lib) /\
    (forall name k off r, In (name, k) symbols -> 1 <= k <= Z.of_nat (length offsets) ->
       nth_error offsets (Z.to_nat (k - 1)) = Some off ->
       member_at h1 first h2 members offsets symbols off name r -> ar_lookup_symbol lib name = Done r) /\
    (forall name, ~ In name (map fst symbols) -> ar_lookup_symbol lib name = Done lookup_failed).
Proof.
  intros h1 first h2 members offsets symbols index file H1 H2 HM HB HO HS HF HN SO.
  exists (the_library h1 first h2 members offsets symbols). split; [apply parse_archive; auto|]. split.
  - intros. eapply lookup_present; eauto.
  - intros. apply lookup_absent; auto.
Qed.
Print Assumptions C25_symbol_found.

(** The name of the dll is read from behind an import header. *)
Theorem C25_dll_name : forall file off header name dll, at_ file off (header ++ name ++ [0] ++ dll ++ [0]) ->
  length header = 20%nat -> Forall (fun c => c <> 0) dll -> Z.of_nat (length dll) < 2 ^ 32 ->
  dll_name file off name = Done dll.
Proof.
  intros file off hd name dll A L N S. unfold dll_name, cstring_at.
  pose proof (at_end _ _ _ A) as [A0 _].
  destruct (Z.ltb_spec (off + 20 + zlen name + 1) 0); [pose proof (zlen_nonneg _ name); lia|].
  rewrite (app_assoc hd), (app_assoc (hd ++ name)) in A. apply at_post in A. destruct (at_skipn _ _ _ A) as [r E].
  replace (off + 20 + zlen name + 1) with (off + zlen ((hd ++ name) ++ [0])) by (unfold zlen; rewrite !app_length, L; cbn [length]; lia).
  rewrite E, <- app_assoc. cbn [app]. rewrite zero_term_app by auto. cbn [obind].
  rewrite wrapu_id by (unfold zlen; lia). unfold zlen. rewrite Nat2Z.id, firstn_all. reflexivity.
Qed.
Print Assumptions C25_dll_name.

(** A small archive with an import of [f] from [a] and an object file defining [g]. *)
Definition ex_import : list Z := [0; 0; 255; 255] ++ repeat 1 16 ++ [102] ++ [0] ++ [97] ++ [0].
Definition ex_object : list Z := repeat 7 20.
Definition ex_members : list Z := ex_header [97] [50; 52] ++ ex_import ++ ex_header [98] [50; 48] ++ ex_object.
Definition ex_symbols : list (list Z * Z) := [([102], 1); ([103], 2)].
Definition ex_offsets : list Z := [152; 236].
Definition ex_archive : list Z :=
  archive (ex_header [47] [48]) [] (ex_header [47] [50; 52]) (symbol_index ex_offsets ex_symbols) ex_members.

Example archive_example : exists lib, ar_parse_file ex_archive = Done (Some lib) /\
  ar_lookup_symbol lib [102] = Done (import_header 212 24) /\
  dll_name ex_archive 212 [102] = Done [97] /\
  ar_lookup_symbol lib [103] = Done (object_file 296 20) /\
  ar_lookup_symbol lib [104] = Done lookup_failed.
Proof.
  destruct (ar_parse_file ex_archive) as [[lib|]| |] eqn:E; try (vm_compute in E; discriminate E).
  exists lib. vm_compute in E. injection E as <-. repeat split; vm_compute; reflexivity.
Qed.

Lemma ex_header_ok : forall name digits n, (length name <= 16)%nat -> (length digits <= 10)%nat -> numeral digits n ->
  header (ex_header name digits) name n.
Proof. intros. unfold ex_header. apply header_intro; auto. Qed.

Example archive_hypotheses :
  header (ex_header [47] [48]) [47] 0 /\
  header (ex_header [47] [50; 52]) [47] (Z.of_nat (length (symbol_index ex_offsets ex_symbols))) /\
  in_order (map fst ex_symbols) /\
  member_at (ex_header [47] [48]) [] (ex_header [47] [50; 52]) ex_members ex_offsets ex_symbols 152 [102] (import_header 212 24).
Proof.
  split; [apply ex_header_ok; try (cbn; lia); repeat split; [discriminate|repeat constructor; lia]|].
  split; [apply ex_header_ok; try (cbn; lia); repeat split; [discriminate|repeat constructor; lia]|].
  split.
  { repeat constructor; intros m; cbn; intros I; intuition subst; apply before_head; lia. }
  apply (member_import _ _ _ _ _ _ 152 [102] (ex_header [97] [50; 52]) [97] (repeat 1 16) [97]).
  - reflexivity.
  - exists (firstn 152 ex_archive), (skipn 236 ex_archive). split; vm_compute; reflexivity.
  - apply ex_header_ok; try (cbn; lia). repeat split; [discriminate|repeat constructor; lia].
Qed.
