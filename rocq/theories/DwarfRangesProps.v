(** C25: DWARF range lists. *)
From Verif Require Import Base ByteModel ByteSpec DwarfRangesModel DwarfRangesSpec DwarfRangesProofs.

(** DWARF 2-4: the list at [offset] in .debug_ranges is read exactly: the
    ranges it denotes are appended, whatever precedes and follows it. *)
Theorem C25_range_list_denotation (en : endian) (width : Z) (xs : list rle4)
  (before after : list Z) (base : Z) (ranges : list (Z * Z)) :
  width = 4 \/ width = 8 -> Forall (rle4_ok width) xs ->
  ReadDwarfRangeList en width (before ++ enc4_list en width xs ++ after)
    (zlen before) base ranges = Ok (ranges ++ denote4 base xs).
Proof.
  intros W F. unfold ReadDwarfRangeList.
  assert ((width =? 4) || (width =? 8) = true) as -> by lia.
  apply range_loop_spec; auto.
  rewrite !app_length. unfold enc4_list. rewrite app_length.
  assert (G : (length xs <= length (concat (map (enc4 en width) xs)))%nat); [|lia].
  clear F. induction xs as [|x xs IH]; cbn; [lia|]. rewrite app_length.
  assert (zlen (enc4 en width x) = 2 * width)
    by (destruct x; cbn [enc4]; rewrite zlen_app, !enc_addr_len; lia).
  unfold zlen in H. lia.
Qed.

(** Whatever the section contains and whatever the offset, the DWARF 2-4
    reader never reads outside the section (and terminates): an unterminated
    list fails a CHECK. *)
Theorem C25_range_list_in_bounds (en : endian) (width : Z) (section : list Z)
  (offset base : Z) (ranges : list (Z * Z)) :
  0 <= offset -> ReadDwarfRangeList en width section offset base ranges <> UB.
Proof.
  intros O. unfold ReadDwarfRangeList.
  destruct ((width =? 4) || (width =? 8)) eqn:W; [|discriminate].
  apply range_loop_safe; try lia. unfold zlen. lia.
Qed.

(** DWARF 5: what the code reads is the meaning of the list EXCEPT that the
    bounds of startx_endx, startx_length and start_length entries are also
    relocated by the current base ([denote5 true]). *)
Theorem C25_rnglist_exact (en : endian) (width : Z) (xs : list rle5) (bytes : list Z)
  (before after addrs : list Z) (addr_base base : Z) (tab : Z -> option Z)
  (ranges r : list (Z * Z)) :
  width = 4 \/ width = 8 -> encodes5_list en width xs bytes ->
  zlen addrs < 2 ^ 64 -> 0 <= addr_base -> addr_table en width addrs addr_base tab ->
  denote5 true tab base xs = Some r ->
  ReadDwarfRngLists en width (before ++ bytes ++ after) addrs base ranges
    (zlen before) addr_base width = Ok (ranges ++ r).
Proof.
  intros W E SZ AB T D. unfold ReadDwarfRngLists.
  apply rnglist_loop_ok with (tab := tab) (xs := xs); auto.
  apply enc5_list_len in E; [|lia]. rewrite !app_length. lia.
Qed.

(** Hence the DWARF 5 meaning is returned for every list in which those three
    entry kinds occur only under a zero base (missing for the full property:
    non-zero bases, where it is refuted below). *)
Theorem C25_rnglist_denotation_partial (en : endian) (width : Z) (xs : list rle5)
  (bytes before after addrs : list Z) (addr_base base : Z) (tab : Z -> option Z)
  (ranges r : list (Z * Z)) :
  width = 4 \/ width = 8 -> encodes5_list en width xs bytes ->
  zlen addrs < 2 ^ 64 -> 0 <= addr_base -> addr_table en width addrs addr_base tab ->
  absolute_only_at_zero tab base xs ->
  denote5 false tab base xs = Some r ->
  ReadDwarfRngLists en width (before ++ bytes ++ after) addrs base ranges
    (zlen before) addr_base width = Ok (ranges ++ r).
Proof.
  intros W E SZ AB T A D. rewrite <- denote5_reloc in D by auto.
  eapply C25_rnglist_exact; eauto.
Qed.

(** Refutation of the full property: a start_length entry under base 0x1000
    (start 0x400000, length 16) is read as [0x401000, 0x401010). *)
Theorem C25_absolute_entry_relocated_refuted :
  exists xs bytes base r r',
    encodes5_list LittleEndian 8 xs bytes /\
    denote5 false (fun _ => None) base xs = Some r /\
    ReadDwarfRngLists LittleEndian 8 bytes [] base [] 0 0 8 = Ok r' /\ r <> r'.
Proof.
  exists [StartLength 4194304 16].
  exists ((7 :: enc_addr LittleEndian 8 4194304 ++ [16]) ++ [0]).
  exists 4096, [(4194304, 4194320)], [(4198400, 4198416)].
  split; [|split; [|split; [|discriminate]]]; try reflexivity.
  constructor; [|constructor]. apply E_sl.
  - unfold addr_ok; cbn; lia.
  - unfold is_uleb; cbn; lia.
Qed.

(** The DWARF 5 reader can read outside its sections: the CHECK on an address
    index allows the index one past the end. *)
Theorem C25_rnglist_out_of_bounds_refuted :
  exists section addrs,
    ReadDwarfRngLists LittleEndian 8 section addrs 0 [] 0 0 8 = UB.
Proof.
  (* base_addressx 1, end_of_list; .debug_addr with one 8-byte address *)
  exists [1; 1; 0], [0; 0; 0; 0; 0; 0; 0; 0]. reflexivity.
Qed.

Example C25_nonvacuous :
  exists xs bytes tab addrs r,
    encodes5_list LittleEndian 4 xs bytes /\ addr_table LittleEndian 4 addrs 8 tab /\
    absolute_only_at_zero tab 4096 xs /\ denote5 false tab 4096 xs = Some r /\
    r = [(4112, 4128); (80, 96); (8192, 8200)].
Proof.
  exists [OffsetPair 16 32; StartEnd 80 96; BaseAddressX 1; OffsetPair 3 11].
  exists ((4 :: [16] ++ [32]) ++ (6 :: enc_addr LittleEndian 4 80 ++ enc_addr LittleEndian 4 96) ++
          (1 :: [1]) ++ (4 :: [3] ++ [139; 0]) ++ [0]).
  exists (fun i => if i =? 1 then Some 8189 else None).
  exists ([1;2;3;4;5;6;7;8] ++ [9;9;9;9] ++ enc_addr LittleEndian 4 8189 ++ [7]).
  eexists. split; [|split; [|split; [|split]]].
  - constructor; [apply E_op; unfold is_uleb; cbn; lia|].
    constructor; [apply E_se; unfold addr_ok; cbn; lia|].
    constructor; [apply E_bax; unfold is_uleb; cbn; lia|].
    constructor; [apply E_op; unfold is_uleb; cbn; lia|]. constructor.
  - intros i a H. destruct (i =? 1) eqn:E; [|discriminate]. inversion H; subst.
    exists [1;2;3;4;5;6;7;8;9;9;9;9], [7]. split; [reflexivity|].
    split; [unfold zlen; cbn [length]; lia|]. split; [lia|]. unfold addr_ok; cbn; lia.
  - cbn. auto.
  - reflexivity.
  - reflexivity.
Qed.

Print Assumptions C25_range_list_denotation.
Print Assumptions C25_range_list_in_bounds.
Print Assumptions C25_rnglist_exact.
Print Assumptions C25_rnglist_denotation_partial.
Print Assumptions C25_absolute_entry_relocated_refuted.
Print Assumptions C25_rnglist_out_of_bounds_refuted.
