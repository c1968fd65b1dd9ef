(** Model of [write_msf], coff_writer.c 353-587: the container of the PDB.  A stream is its list of bytes, the file
    the list of the bytes written.  Integer types are reduced where the code converts to u32; a failed assert, or a
    loop that does not end, is [Crash]; the return value 0 is [Reported]. *)
From Verif Require Import Base ArModel.

Definition ps : Z := 0x1000.
Definition zfirst {A} (n : Z) (l : list A) : list A := firstn (Z.to_nat n) l.
Definition zskip {A} (n : Z) (l : list A) : list A := skipn (Z.to_nat n) l.
Definition fill (v n : Z) : list Z := repeat v (Z.to_nat n).

Definition u32 (x : Z) : Z := wrapu 32 x.
Definition bytes_u32 (x : Z) : list Z := [x mod 256; x / 256 mod 256; x / 65536 mod 256; x / 16777216 mod 256].
Definition bytes_u32s (l : list Z) : list Z := concat (map bytes_u32 l).

(** [(x + 0xfff) & ~0xfff] and [(x + 0xfff)/0x1000] *)
Definition align_page (x : Z) : Z := Z.ldiff (x + 0xfff) 0xfff.
Definition size_in_pages (x : Z) : Z := (x + 0xfff) / ps.

(** coff_writer.c 432-433, 456-457: pages of the free page map. *)
Definition is_free_page_map (page_index : Z) : bool :=
  (Z.land page_index 0xfff =? 1) || (Z.land page_index 0xfff =? 2).
(** 431-434, 455-458: the loop over the pages from [from] to [to_]. *)
Definition pages_between (from to_ : Z) : list Z :=
  filter (fun p => negb (is_free_page_map p)) (map (fun i => from + Z.of_nat i) (seq 0 (Z.to_nat (to_ - from)))).

(** coff_writer.c 357-425: the sizes. *)
Definition stream_pages_size (streams : list (list Z)) : Z := fold_right (fun s acc => align_page (zlen s) + acc) 0 streams.
Definition table_size (streams : list (list Z)) : Z :=
  4 + 4 * (u32 (zlen streams + 1)) + 4 * (stream_pages_size streams / ps).
Definition table_pages (streams : list (list Z)) : Z := u32 (size_in_pages (table_size streams)).
Definition page_list_size (streams : list (list Z)) : Z := u32 (4 * table_pages streams).
Definition page_list_pages (streams : list (list Z)) : Z := u32 (size_in_pages (page_list_size streams)).
Definition amount_of_pages (streams : list (list Z)) : Z :=
  let aligned_total_size := stream_pages_size streams + align_page (table_size streams) + align_page (page_list_size streams) in
  let pages := aligned_total_size / ps in
  pages + 2 * ((pages + ((0x1000 - 2) - 1)) / (0x1000 - 2)) + 1.
Definition page_list_end (streams : list (list Z)) : Z :=
  u32 (3 + page_list_pages streams + 2 * (page_list_pages streams / (0x1000 - 2))).
Definition table_page_end (streams : list (list Z)) : Z :=
  u32 (3 + (page_list_pages streams + table_pages streams) + 2 * ((page_list_pages streams + table_pages streams) / (0x1000 - 2))).

(** 520-545: the contents of the [k]-th free page map. *)
Definition set_bit (buffer : list Z) (relative_page_index : Z) : list Z :=
  let byte_index := Z.to_nat (relative_page_index / 8) in
  firstn byte_index buffer ++
  match skipn byte_index buffer with
  | [] => []
  | b :: rest => Z.lor b (Z.shiftl 1 (relative_page_index mod 8)) :: rest
  end.
Definition free_page_map (amount_of_pages k : Z) : list Z :=
  let range_start := k * 0x8000 in
  let range_end := (k + 1) * 0x8000 in
  if range_end <=? amount_of_pages then fill 0 ps
  else if amount_of_pages <? range_start then fill 255 ps
  else fold_left (fun buffer i => set_bit buffer (amount_of_pages + Z.of_nat i - range_start))
         (seq 0 (Z.to_nat (range_end - amount_of_pages))) (fill 0 ps).

(** The variables of the write loop: the file, [write_offset], [next_free_page_maps]. *)
Record writer := { file : list Z; write_offset : Z; next_free_page_maps : Z }.

(** 513-574: write one stream.  The offset in the stream is an u32. *)
Fixpoint write_stream (fuel : nat) (amount_of_pages : Z) (stream : list Z) (offset_in_stream : Z) (w : writer) : outcome writer :=
  match fuel with
  | O => Crash
  | S fuel =>
      if offset_in_stream <? zlen stream then
        let w := if write_offset w =? next_free_page_maps w
                 then {| file := (file w ++ free_page_map amount_of_pages ((next_free_page_maps w / 0x1000) / 0x1000)) ++ fill 0 0x1000;
                         write_offset := write_offset w + 0x2000;
                         next_free_page_maps := next_free_page_maps w + 0x1000 * 0x1000 |}
                 else w in
        let size_to_write := u32 (zlen stream - offset_in_stream) in
        let size_to_write := if size_to_write >? next_free_page_maps w - write_offset w
                             then u32 (next_free_page_maps w - write_offset w) else size_to_write in
        let f := file w ++ zfirst size_to_write (zskip offset_in_stream stream) in
        let size_to_zero := if negb (Z.land size_to_write 0xfff =? 0) then 0x1000 - Z.land size_to_write 0xfff else 0 in
        let f := f ++ fill 0 size_to_zero in
        let size_to_write := u32 (size_to_write + size_to_zero) in
        write_stream fuel amount_of_pages stream (u32 (offset_in_stream + size_to_write))
          {| file := f; write_offset := write_offset w + size_to_write; next_free_page_maps := next_free_page_maps w |}
      else Done w
  end.

Fixpoint write_streams (amount_of_pages : Z) (streams : list (list Z)) (w : writer) : outcome writer :=
  match streams with
  | [] => Done w
  | s :: rest => obind (write_stream (S (length s)) amount_of_pages s 0 w) (write_streams amount_of_pages rest)
  end.

(** 478-495: "Microsoft C/C++ MSF 7.00\r\n\032DS\0\0\0" and the other fields. *)
Definition signature : list Z :=
  [77; 105; 99; 114; 111; 115; 111; 102; 116; 32; 67; 47; 67; 43; 43; 32; 77; 83; 70; 32; 55; 46; 48; 48; 13; 10; 26; 68; 83; 0; 0; 0].
Definition msf_header (streams : list (list Z)) : list Z :=
  let fields := signature ++ bytes_u32s ([0x1000; 1; u32 (amount_of_pages streams); u32 (table_size streams); 0] ++
                  map (fun i => 3 + Z.of_nat i) (seq 0 (Z.to_nat (page_list_pages streams)))) in
  fields ++ fill 0 (0x1000 - zlen fields).

(** 428-462: the two extra streams. *)
Definition page_list_stream (streams : list (list Z)) : list Z :=
  bytes_u32s (pages_between (page_list_end streams) (table_page_end streams)).
Definition table_stream (streams : list (list Z)) : list Z :=
  bytes_u32s ([u32 (zlen streams + 1); 0] ++ map (fun s => u32 (zlen s)) streams ++
              pages_between (table_page_end streams) (amount_of_pages streams)).

Definition write_msf (streams : list (list Z)) : outcome (list Z) :=
  if negb (zlen (page_list_stream streams) =? page_list_size streams) then Crash (* 436 *) else
  if negb (zlen (table_stream streams) =? table_size streams) then Crash (* 461 *) else
  if amount_of_pages streams >? 2 ^ 32 - 1 then Crash (* the u32 in 455 never gets there *) else
  if page_list_pages streams >? (0x1000 - 52) / 4 then Reported else
  obind (write_streams (amount_of_pages streams) (page_list_stream streams :: table_stream streams :: streams)
          {| file := msf_header streams; write_offset := 0x1000; next_free_page_maps := 0x1000 |})
        (fun w => Done (file w)).
