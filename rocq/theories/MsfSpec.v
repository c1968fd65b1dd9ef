(** A reader for the multi stream file format, after the documentation of the format (page size 4096 only). *)
From Verif Require Import Base.

Definition len (l : list Z) : Z := Z.of_nat (length l).
Definition page (file : list Z) (p : Z) : list Z := firstn (Z.to_nat 4096) (skipn (Z.to_nat (4096 * p)) file).

(** The first [n] little endian 32 bit words. *)
Fixpoint words (n : nat) (l : list Z) : option (list Z) :=
  match n, l with
  | O, _ => Some []
  | S n, a :: b :: c :: d :: rest =>
      match words n rest with Some ws => Some (a + 256 * b + 65536 * c + 16777216 * d :: ws) | None => None end
  | _, _ => None
  end.

(** Two of 4096 pages hold the free page maps; they and pages behind the end cannot belong to a stream. *)
Definition data_page (pages p : Z) : bool :=
  (1 <=? p) && (p <? pages) && negb (p mod 4096 =? 1) && negb (p mod 4096 =? 2).

(** The stream of [size] bytes on the pages [ps]. *)
Definition on_pages (file : list Z) (pages : Z) (ps : list Z) (size : Z) : option (list Z) :=
  if forallb (data_page pages) ps then Some (firstn (Z.to_nat size) (concat (map (page file) ps))) else None.

Definition pages_for (size : Z) : Z := (size + 4095) / 4096.

(** The streams whose sizes are [sizes] and whose page numbers follow each other in [table]. *)
Fixpoint streams (file : list Z) (pages : Z) (sizes : list Z) (table : list Z) : option (list (list Z)) :=
  match sizes with
  | [] => match table with [] => Some [] | _ => None end
  | size :: sizes =>
      let n := Z.to_nat (pages_for size) in
      match on_pages file pages (firstn n table) size, streams file pages sizes (skipn n table) with
      | Some s, Some rest => if (n <=? length table)%nat then Some (s :: rest) else None
      | _, _ => None
      end
  end.

Definition magic : list Z :=
  [77; 105; 99; 114; 111; 115; 111; 102; 116; 32; 67; 47; 67; 43; 43; 32; 77; 83; 70; 32; 55; 46; 48; 48; 13; 10; 26; 68; 83; 0; 0; 0].

Notation "'do' x <- a ; b" := (match a with Some x => b | None => None end) (at level 200, x pattern, a at level 100, b at level 200).

Definition read_msf (file : list Z) : option (list (list Z)) :=
  if negb (if list_eq_dec Z.eq_dec (firstn 32 file) magic then true else false) then None else
  do fields <- words 5 (skipn 32 file);
  match fields with
  | [page_size; active; pages; table_size; _] =>
      if (page_size =? 4096) && ((active =? 1) || (active =? 2)) && (len file =? 4096 * pages) then
        let table_pages := pages_for table_size in
        let list_pages := pages_for (4 * table_pages) in
        (* the page numbers in the first page lead to the page numbers of the table *)
        do roots <- words (Z.to_nat list_pages) (skipn 52 (page file 0));
        do list_bytes <- on_pages file pages roots (4 * table_pages);
        do table_at <- words (Z.to_nat table_pages) list_bytes;
        do table_bytes <- on_pages file pages table_at table_size;
        do count <- words 1 table_bytes;
        let n := nth 0 count 0 in
        do all <- words (Z.to_nat (table_size / 4)) table_bytes;
        if table_size / 4 <? 1 + n then None else
        streams file pages (firstn (Z.to_nat n) (skipn 1 all)) (skipn (Z.to_nat (1 + n)) all)
      else None
  | _ => None
  end.

(** Is the page marked as free?  The active free page map is made of the pages number 1 (or 2) of each group of 4096
    pages; one such page has the bits for 32768 pages. *)
Definition marked_free (file : list Z) (p : Z) : bool :=
  let map_page := page file (4096 * (p / 32768) + 1) in
  Z.testbit (nth (Z.to_nat (p mod 32768 / 8)) map_page 0) (p mod 8).

(** What the streams need: data pages, the size of the table (the number of streams, the size of each, one page number
    per page, all for one more stream, the empty 'old table'), and the number of page numbers in the first page,
    which has room for 1011. *)
Definition data_pages (ss : list (list Z)) : Z := fold_right (fun s a => pages_for (len s) + a) 0 ss.
Definition table_bytes (ss : list (list Z)) : Z := 4 * (2 + Z.of_nat (length ss) + data_pages ss).
Definition root_entries (ss : list (list Z)) : Z := pages_for (4 * pages_for (table_bytes ss)).
