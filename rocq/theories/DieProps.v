(** C62: reading .debug_info and .debug_abbrev drives the handler exactly as the
    debugging entries that were written. *)
From Verif Require Import Base ByteModel ByteSpec DieModel DieSpec DieProofs DieTerm.

Definition bytes_in (o : option (list Z)) : Prop := forall b, o = Some b -> Forall is_byte b.

(** The whole section: every handler ends in the state that walking the written entries
    leads to (or the walk ends with the same failure). *)
Theorem C62_section {S : Type} en (s : sections) (h : handler S) us hs r :
  zlen (s_info s) < 2 ^ 64 -> bytes_in (s_str_offsets s) -> bytes_in (s_addr s) ->
  enc_units en s 0 us (s_info s) -> visit_units en s h us hs = Some r -> ReadUnits en h s hs = r.
Proof. intros L Bo Ba E V. apply (units_ok en s h Bo Ba L us (s_info s) [] _ hs r E eq_refl V). apply Nat.le_refl. Qed.

(** One unit, wherever it is and whatever follows: its entries are visited and exactly its bytes are
    consumed, so that the next unit is read from its start. *)
Theorem C62_unit {S : Type} en (s : sections) (h : handler S) u pre bs rest hs r :
  zlen (s_info s) < 2 ^ 64 -> bytes_in (s_str_offsets s) -> bytes_in (s_addr s) ->
  s_info s = pre ++ bs ++ rest -> enc_unit en s (zlen pre) u bs -> visit_unit en s h u hs = Some r ->
  Start en h s (zlen pre) hs = (let! hs := r in Ok (zlen bs, false, hs)).
Proof. intros L Bo Ba I E V. apply (start_ok en s h Bo Ba L u bs pre rest hs r E I V). Qed.

(** An abbreviation and an entry of it, wherever they are: reading the entry and skipping it both consume exactly its
    bytes. *)
Theorem C62_skip {S : Type} en version asz osz (s : sections) (h : handler S) l db bs items rest rest' u offset st st' :
  asz = 4 \/ asz = 8 -> osz = 4 \/ osz = 8 -> u_version u = version -> u_asz u = asz -> u_osz u = osz -> bytes_in (s_str_offsets s) -> bytes_in (s_addr s) ->
  enc_decl_attrs l db -> enc_items en version asz osz l bs items -> visit_items en s h u offset l items st = Some (Ok st') -> (forall it, In it items -> fst it <> 0x1f) ->
  exists sps, read_specs (length db) (db ++ rest') = Ok (sps, rest') /\ ProcessDIE en version asz osz h s offset (bs ++ rest) sps st = Ok (st', rest) /\ SkipDIE en version asz osz (bs ++ rest) sps = Ok rest.
Proof.
  intros HA HO U1 U2 U3 Bo Ba D E V N. destruct (read_specs_ok l db D (length db) rest' (Nat.le_refl _)) as (sps & R & F). exists sps. split; [exact R|]. split.
  - apply (process_die en version asz osz HA HO h s u U1 U2 U3 Bo Ba l bs items E sps rest offset st (Ok st') F V).
  - assert (X : existsb (fun x => fst x =? 31) items = false). { apply not_true_is_false. intros X. apply existsb_exists in X. destruct X as (it & I & X). apply (N it I). lia. }
    rewrite (skip_die en version asz osz s Bo Ba l bs items E sps rest F), X. reflexivity.
Qed.

(** Whatever the bytes are: the reader comes to an end; a greater bound on the number of
    turns of any loop changes nothing. *)
Theorem C62_terminates {S : Type} en (s : sections) (h : handler S) hs fuel : zlen (s_info s) < 2 ^ 64 -> (length (s_info s) <= fuel)%nat ->
  read_units en h s fuel 0 hs = ReadUnits en h s hs.
Proof. intros L F. unfold ReadUnits. apply (units_fuel en h s L); unfold zlen in *; lia. Qed.
Theorem C62_terminates_entries {S : Type} en version asz osz (s : sections) (h : handler S) abbrevs finish p stack st fuel : (length p < fuel)%nat ->
  ProcessDIEs en version asz osz h s fuel abbrevs finish p stack st = ProcessDIEs en version asz osz h s (Datatypes.S (length p)) abbrevs finish p stack st.
Proof. intros F. apply dies_fuel; lia. Qed.
Theorem C62_terminates_abbrevs p abbrevs fuel : (length p < fuel)%nat -> read_abbrevs fuel p abbrevs = read_abbrevs (S (length p)) p abbrevs.
Proof. intros F. apply abbrevs_fuel; lia. Qed.

(** *** What cannot be claimed.  The handler notes down the attributes it is given. *)
Record noted := { n_str : Z; n_addr : Z; n_log : list (Z * value) }.
Definition note : handler noted := {|
  h_unit := fun _ _ _ _ _ x => Ok (true, x);
  h_start := fun _ tag _ x => Ok (negb (tag =? 0x2e), x);
  h_attr := fun _ a _ v x => Ok {| n_str := n_str x; n_addr := if a =? 0x73 then match v with VUnsigned n => n | _ => n_addr x end else n_addr x; n_log := n_log x ++ [(a, v)] |};
  h_end := fun _ x => Ok x;
  h_str_base := n_str; h_set_str_base := fun b x => {| n_str := b; n_addr := n_addr x; n_log := n_log x |};
  h_addr_base := n_addr; h_set_addr_base := fun b x => {| n_str := n_str x; n_addr := b; n_log := n_log x |};
  h_split := fun _ x => Ok x |}.
Definition noted0 := {| n_str := 0; n_addr := 0; n_log := [] |}.
(** the attributes that are noted down *)
Definition notes (s : sections) : outcome (list (Z * value)) := let! x := ReadUnits LittleEndian note s noted0 in Ok (n_log x).
(** one unit of version 5, 8-byte addresses; [al] describes the attributes of its only entry, [body]
    are their values *)
Definition one (tag : Z) (al body : list Z) (addr str lstr : option (list Z)) : sections := {|
  s_info := [9 + zlen body; 0; 0; 0; 5; 0; 1; 8; 0; 0; 0; 0; 1] ++ body; s_abbrev := Some ([1; tag; 0] ++ al ++ [0; 0; 0]);
  s_str := str; s_line_str := lstr; s_str_offsets := None; s_addr := addr |}.
Definition one_unit (tag : Z) (attrs : list decl_attr) (items : list (Z * item)) (body : list Z) : dunit :=
  {| u_offset := 0; u_length := 9 + zlen body; u_version := 5; u_asz := 8; u_osz := 4; u_trees := [Tree 12 {| d_tag := tag; d_children := false; d_attrs := attrs |} items []] |}.

Lemma one_enc tag attrs items al body addr str lstr : 0 <= tag < 128 -> zlen body < 200 ->
  (forall b, addr = Some b -> table_header LittleEndian b 4 (fun x y => x = 8 /\ is_byte y)) ->
  enc_decl_attrs attrs (al ++ [0; 0]) -> enc_items LittleEndian 5 8 4 attrs body items ->
  enc_units LittleEndian (one tag al body addr str lstr) 0 [one_unit tag attrs items body] (s_info (one tag al body addr str lstr)).
Proof.
  intros T L AD ED EI. pose proof (zlen_nonneg body) as B. rewrite <- (app_nil_r (s_info _)). apply un_cons; [|apply un_nil]. unfold one, one_unit. cbn [s_info].
  change ([9 + zlen body; 0; 0; 0; 5; 0; 1; 8; 0; 0; 0; 0; 1] ++ body) with ([9 + zlen body; 0; 0; 0] ++ ([5; 0] ++ [1; 8] ++ [0; 0; 0; 0]) ++ ([1] ++ body)).
  apply (eu _ _ 0 5 8 4 (9 + zlen body) _ _ 0 [] ([1; tag; 0] ++ al ++ [0; 0; 0]) [] [{| d_tag := tag; d_children := false; d_attrs := attrs |}]).
  - left. split; [reflexivity|]. split; [|lia]. split; [reflexivity|]. split; [repeat apply Forall_cons; try apply Forall_nil; unfold is_byte; lia|]. cbn [num_of le_value]. lia.
  - rewrite !zlen_app. change (zlen [5; 0]) with 2. change (zlen [1; 8]) with 2. change (zlen [0; 0; 0; 0]) with 4. change (zlen [1]) with 1. lia.
  - right. reflexivity.
  - apply eh_5; [reflexivity| |]; (split; [reflexivity|]; split; [repeat apply Forall_cons; try apply Forall_nil; unfold is_byte; lia|reflexivity]).
  - intros _. split; [discriminate|]. cbn [s_addr]. exact AD.
  - cbn [s_abbrev app]. rewrite app_nil_r. reflexivity.
  - reflexivity.
  - replace ([1; tag; 0] ++ al ++ [0; 0; 0]) with ([1] ++ [tag] ++ [0] ++ (al ++ [0; 0]) ++ [0]) by (cbn [app]; rewrite <- app_assoc; reflexivity).
    apply ds_decl; [| | | |reflexivity|exact ED|apply ds_end]; cbn [d_tag]; unfold uleb; cbn [leb_shape leb_bits]; change (zlen [1]) with 1; change (zlen [tag]) with 1; change (zlen [0]) with 1; rewrite ?Z.mod_small by lia; lia.
  - cbn [zlen length app]. rewrite <- (app_nil_r (1 :: body)). apply eo_cons; [|apply eo_nil]. apply (et_leaf _ _ _ _ _ 12 1 _ _ [1]); [|lia|reflexivity|reflexivity|exact EI]. unfold uleb. cbn [leb_shape leb_bits]. change (zlen [1]) with 1. lia.
  - discriminate.
Qed.
Ltac ul := unfold uleb, sleb; split; [cbn [leb_shape]; lia|]; split; [vm_compute; discriminate|]; split; [reflexivity|first [lia|vm_compute; reflexivity]].
Ltac fx := split; [reflexivity|]; split; [repeat apply Forall_cons; try apply Forall_nil; unfold is_byte; lia|reflexivity].
Lemma addr_table n : table_header LittleEndian ([4; 8; 0; 0; 5; 0; 8; 0] ++ repeat 0 n) 4 (fun x y => x = 8 /\ is_byte y).
Proof. exists [4; 8; 0; 0], 2052, [5; 0], 8, 0, (repeat 0 n). split; [reflexivity|]. split; [left; split; [reflexivity|]; split; [fx|lia]|]. split; [fx|]. unfold is_byte. lia. Qed.

(** An index of an address (DW_FORM_addrx) of more than one byte: the reader goes on behind the
    first of its bytes, so what follows in the entry is misread.  Written are the entry 128 of .debug_addr as
    DW_AT_low_pc and 12 as DW_AT_language; 3073 is read as the latter. *)
Theorem C62_addrx_refuted : exists s attrs items body,
  map a_name attrs = [0x11; 0x13] /\ items = [(0x1b, IAddrx false 128); (0x05, IUnsigned 12)] /\
  enc_units LittleEndian s 0 [one_unit 17 attrs items body] (s_info s) /\ notes s = Ok [(0x11, VUnsigned 0); (0x13, VUnsigned 3073)].
Proof.
  exists (one 17 [17; 27; 19; 5] [128; 1; 12; 0] (Some ([4; 8; 0; 0; 5; 0; 8; 0] ++ repeat 0 1100)) None None),
    [{| a_name := 17; a_form := 27; a_const := 0 |}; {| a_name := 19; a_form := 5; a_const := 0 |}], [(0x1b, IAddrx false 128); (0x05, IUnsigned 12)], [128; 1; 12; 0].
  split; [reflexivity|]. split; [reflexivity|]. split; [|vm_compute; reflexivity]. apply one_enc; [lia|reflexivity|intros b X; apply (f_equal (fun o => match o with Some x => x | None => b end)) in X; rewrite <- X; apply (addr_table 1100)| |].
  - apply (da_attr _ _ [17] [27] [] [19; 5; 0; 0]); cbn [a_name a_form]; [ul|lia|ul|lia|lia|reflexivity|]. apply (da_attr _ _ [19] [5] [] [0; 0]); cbn [a_name a_form]; [ul|lia|ul|lia|lia|reflexivity|]. apply (da_end [0] [0]); ul.
  - apply (ei_cons _ _ _ _ _ _ [128; 1] [12; 0]); [apply (ev_addrx _ _ _ _ _ [128; 1]); [left; reflexivity|ul]|]. apply (ei_cons _ _ _ _ _ _ [12; 0] []); [apply (ev_fixed _ _ _ _ _ 2); [cbn; auto 20|fx]|apply ei_nil].
Qed.

(** DW_FORM_addrx2: the index is ignored (entry 0 is delivered), whatever it is.  Here the entry 1 is 7. *)
Theorem C62_addrx2_refuted : exists s attrs items body,
  map a_name attrs = [0x11] /\ items = [(0x2a, IAddrx false 1)] /\ entry_of LittleEndian (match s_addr s with Some b => b | None => [] end) (8 + 1 * 8) 8 = Some 7 /\
  enc_units LittleEndian s 0 [one_unit 17 attrs items body] (s_info s) /\ notes s = Ok [(0x11, VUnsigned 0)].
Proof.
  exists (one 17 [17; 42] [1; 0] (Some [20; 0; 0; 0; 5; 0; 8; 0; 0; 0; 0; 0; 0; 0; 0; 0; 7; 0; 0; 0; 0; 0; 0; 0]) None None), [{| a_name := 17; a_form := 42; a_const := 0 |}], [(0x2a, IAddrx false 1)], [1; 0].
  split; [reflexivity|]. split; [reflexivity|]. split; [reflexivity|]. split; [|vm_compute; reflexivity]. apply one_enc; [lia|reflexivity| | |].
  - intros b X. injection X as <-. exists [20; 0; 0; 0], 20, [5; 0], 8, 0, (repeat 0 8 ++ 7 :: repeat 0 7). split; [reflexivity|]. split; [left; split; [reflexivity|]; split; [fx|lia]|]. split; [fx|]. unfold is_byte. lia.
  - apply (da_attr _ _ [17] [42] [] [0; 0]); cbn [a_name a_form]; [ul|lia|ul|lia|lia|reflexivity|]. apply (da_end [0] [0]); ul.
  - apply (ei_cons _ _ _ _ _ _ [1; 0] []); [apply (ev_addrxn _ _ _ _ _ 2); [cbn; auto 20|fx]|apply ei_nil].
Qed.

(** A constant in the abbreviation (DW_FORM_implicit_const) that is negative is delivered as a positive number:
    -1 as 127. *)
Theorem C62_implicit_const_refuted : exists s attrs items body,
  attrs = [{| a_name := 0x1c; a_form := 0x21; a_const := -1 |}] /\ items = [(0x21, IConst)] /\
  enc_units LittleEndian s 0 [one_unit 17 attrs items body] (s_info s) /\ notes s = Ok [(0x1c, VSigned 127)].
Proof.
  exists (one 17 [28; 33; 127] [] None None None), [{| a_name := 28; a_form := 33; a_const := -1 |}], [(0x21, IConst)], [].
  split; [reflexivity|]. split; [reflexivity|]. split; [|vm_compute; reflexivity]. apply one_enc; [lia|reflexivity|discriminate| |].
  - apply (da_attr _ _ [28] [33] [127] [0; 0]); cbn [a_name a_form]; [ul|lia|ul|lia|lia|cbn [Z.eqb Pos.eqb a_const]; ul|]. apply (da_end [0] [0]); ul.
  - apply (ei_cons _ _ _ _ _ _ [] []); [apply ev_const|apply ei_nil].
Qed.

(** The program ends when it has to skip an entry with a string in .debug_line_str, although it could read it. *)
Theorem C62_line_strp_refuted : exists al body, forall tag lstr,
  (0 <= tag < 128 -> tag <> 0x2e -> lstr <> [] -> exists attrs items, items = [(0x1f, ILineStrp 0)] /\
     enc_units LittleEndian (one tag al body None None (Some (lstr ++ [0]))) 0 [one_unit tag attrs items body] (s_info (one tag al body None None (Some (lstr ++ [0]))))) /\
  notes (one 0x2e al body None None (Some (lstr ++ [0]))) = Abort /\ notes (one 0x11 al body None None (Some [65; 0])) = Ok [(3, VString (Some [65]))].
Proof.
  exists [3; 31], [0; 0; 0; 0]. intros tag lstr. split; [|split; reflexivity]. intros T T2 NL. exists [{| a_name := 3; a_form := 31; a_const := 0 |}], [(0x1f, ILineStrp 0)]. split; [reflexivity|]. apply one_enc; [lia|reflexivity|discriminate| |].
  - apply (da_attr _ _ [3] [31] [] [0; 0]); cbn [a_name a_form]; [ul|lia|ul|lia|lia|reflexivity|]. apply (da_end [0] [0]); ul.
  - apply (ei_cons _ _ _ _ _ _ [0; 0; 0; 0] []); [apply ev_line_strp; fx|apply ei_nil].
Qed.

(** Abbreviation codes are arbitrary in DWARF; one that is not the next number ends the program. *)
Theorem C62_abbrev_code_refuted n tag : 1 < n < 128 -> 0 <= tag < 128 -> forall s, s_abbrev s = Some [n; tag; 0; 0; 0; 0] -> ReadAbbrevs s 0 = Abort.
Proof.
  intros N T s E. unfold ReadAbbrevs. rewrite E. change (at_pos 0 [n; tag; 0; 0; 0; 0]) with [n; tag; 0; 0; 0; 0]. cbn [length read_abbrevs].
  change [n; tag; 0; 0; 0; 0] with ([n] ++ [tag; 0; 0; 0; 0]). rewrite (next_uleb_app [n] n) by (unfold uleb; cbn [leb_shape leb_bits]; change (zlen [n]) with 1; rewrite Z.mod_small; lia). cbn [obind]. rewrite u32_small by lia. assert (n =? 0 = false) as -> by lia.
  change [tag; 0; 0; 0; 0] with ([tag] ++ [0; 0; 0; 0]). rewrite (next_uleb_app [tag] tag) by (unfold uleb; cbn [leb_shape leb_bits]; change (zlen [tag]) with 1; rewrite Z.mod_small; lia). cbn [obind].
  change (ReadOneByte [0; 0; 0; 0]) with (Ok 0). cbn [obind]. change (advance 1 [0; 0; 0; 0]) with (Ok [0; 0; 0]). cbn [obind].
  change (read_specs 6 [0; 0; 0]) with (Ok (@nil spec, [0])). cbn [obind]. assert (n =? zlen [{| ab_number := 0; ab_tag := 0; ab_children := false; ab_specs := [] |}] = false) as -> by (change (n =? 1 = false); lia). reflexivity.
Qed.

(** Hypotheses of the theorems: a unit of version 4 with nested entries, a string in .debug_str, an entry that the handler
    does not want. *)
Definition ex_s : sections := {|
  s_info := [30; 0; 0; 0; 4; 0; 0; 0; 0; 0; 8] ++ [1; 1; 0; 0; 0; 0; 16; 0; 0; 0; 0; 0; 0] ++ [2; 5; 97; 98; 0] ++ [3; 2; 9; 9] ++ [0];
  s_abbrev := Some [1; 17; 1; 3; 14; 17; 1; 0; 0; 2; 52; 0; 58; 11; 3; 8; 0; 0; 3; 46; 0; 64; 10; 0; 0; 0];
  s_str := Some [0; 120; 0]; s_line_str := None; s_str_offsets := None; s_addr := None |}.
Definition ex_d1 := {| d_tag := 17; d_children := true; d_attrs := [{| a_name := 3; a_form := 14; a_const := 0 |}; {| a_name := 17; a_form := 1; a_const := 0 |}] |}.
Definition ex_d2 := {| d_tag := 52; d_children := false; d_attrs := [{| a_name := 58; a_form := 11; a_const := 0 |}; {| a_name := 3; a_form := 8; a_const := 0 |}] |}.
Definition ex_d3 := {| d_tag := 46; d_children := false; d_attrs := [{| a_name := 64; a_form := 10; a_const := 0 |}] |}.
Definition ex_u := {| u_offset := 0; u_length := 30; u_version := 4; u_asz := 8; u_osz := 4; u_trees :=
  [Tree 11 ex_d1 [(14, IStrp 1); (1, IUnsigned 4096)] [Tree 24 ex_d2 [(11, IUnsigned 5); (8, IString [97; 98])] []; Tree 29 ex_d3 [(10, IBlock [9; 9])] []]] |}.
Lemma ex_enc : enc_units LittleEndian ex_s 0 [ex_u] (s_info ex_s).
Proof.
  apply (un_cons _ _ 0 ex_u [] (s_info ex_s) []); [|apply un_nil].
  apply (eu LittleEndian ex_s 0 4 8 4 30 [30; 0; 0; 0] [4; 0; 0; 0; 0; 0; 8] 0 [] [1; 17; 1; 3; 14; 17; 1; 0; 0; 2; 52; 0; 58; 11; 3; 8; 0; 0; 3; 46; 0; 64; 10; 0; 0; 0] [] [ex_d1; ex_d2; ex_d3]).
  - left. split; [reflexivity|]. split; [fx|lia].
  - reflexivity.
  - right. reflexivity.
  - apply (eh_old _ 4 8 4 0 [4; 0] [0; 0; 0; 0]); [lia|fx|fx].
  - intros X. discriminate X.
  - reflexivity.
  - reflexivity.
  - apply (ds_decl 1 ex_d1 _ [1] [17] 1 [3; 14; 17; 1; 0; 0] [2; 52; 0; 58; 11; 3; 8; 0; 0; 3; 46; 0; 64; 10; 0; 0; 0]); [ul|lia|ul|cbn [d_tag ex_d1]; lia|reflexivity| |].
    { apply (da_attr _ _ [3] [14] [] [17; 1; 0; 0]); cbn [a_name a_form]; [ul|lia|ul|lia|lia|reflexivity|]. apply (da_attr _ _ [17] [1] [] [0; 0]); cbn [a_name a_form]; [ul|lia|ul|lia|lia|reflexivity|]. apply (da_end [0] [0]); ul. }
    apply (ds_decl 2 ex_d2 _ [2] [52] 0 [58; 11; 3; 8; 0; 0] [3; 46; 0; 64; 10; 0; 0; 0]); [ul|lia|ul|cbn [d_tag ex_d2]; lia|reflexivity| |].
    { apply (da_attr _ _ [58] [11] [] [3; 8; 0; 0]); cbn [a_name a_form]; [ul|lia|ul|lia|lia|reflexivity|]. apply (da_attr _ _ [3] [8] [] [0; 0]); cbn [a_name a_form]; [ul|lia|ul|lia|lia|reflexivity|]. apply (da_end [0] [0]); ul. }
    apply (ds_decl 3 ex_d3 _ [3] [46] 0 [64; 10; 0; 0] [0]); [ul|lia|ul|cbn [d_tag ex_d3]; lia|reflexivity| |apply ds_end; ul].
    apply (da_attr _ _ [64] [10] [] [0; 0]); cbn [a_name a_form]; [ul|lia|ul|lia|lia|reflexivity|]. apply (da_end [0] [0]); ul.
  - apply (eo_cons _ _ _ _ _ _ _ [] ([1; 1; 0; 0; 0; 0; 16; 0; 0; 0; 0; 0; 0] ++ [2; 5; 97; 98; 0] ++ [3; 2; 9; 9] ++ [0]) []); [|apply eo_nil].
    apply (et_node _ _ _ _ _ 11 1 ex_d1 _ _ [1] [1; 0; 0; 0; 0; 16; 0; 0; 0; 0; 0; 0] ([2; 5; 97; 98; 0] ++ [3; 2; 9; 9]) [0]); [ul|lia|reflexivity|reflexivity| | |ul].
    { apply (ei_cons _ _ _ _ _ _ [1; 0; 0; 0] [0; 16; 0; 0; 0; 0; 0; 0]); [apply ev_strp; fx|]. apply (ei_cons _ _ _ _ _ _ [0; 16; 0; 0; 0; 0; 0; 0] []); [apply ev_addr; fx|apply ei_nil]. }
    change (11 + zlen [1] + zlen [1; 0; 0; 0; 0; 16; 0; 0; 0; 0; 0; 0]) with 24. apply es_cons; [|apply (es_cons _ _ _ _ _ 29 _ [] [3; 2; 9; 9] []); [|apply es_nil]].
    + apply (et_leaf _ _ _ _ _ 24 2 ex_d2 _ [2] [5; 97; 98; 0]); [ul|lia|reflexivity|reflexivity|]. apply (ei_cons _ _ _ _ _ _ [5] [97; 98; 0]); [apply (ev_fixed _ _ _ _ _ 1); [cbn; auto 20|fx]|]. apply (ei_cons _ _ _ _ _ _ ([97; 98] ++ [0]) []); [apply ev_string|apply ei_nil]. repeat apply Forall_cons; try apply Forall_nil; lia.
    + apply (et_leaf _ _ _ _ _ 29 3 ex_d3 _ [3] [2; 9; 9]); [ul|lia|reflexivity|reflexivity|]. apply (ei_cons _ _ _ _ _ _ ([2] ++ [9; 9]) []); [apply (ev_block _ _ _ _ 10 1); [cbn; auto|fx]|apply ei_nil].
  - discriminate.
Qed.
Example C62_nonvacuous : zlen (s_info ex_s) < 2 ^ 64 /\ bytes_in (s_str_offsets ex_s) /\ bytes_in (s_addr ex_s) /\ enc_units LittleEndian ex_s 0 [ex_u] (s_info ex_s) /\
  visit_units LittleEndian ex_s note [ex_u] noted0 = Some (Ok {| n_str := 0; n_addr := 0; n_log := [(3, VString (Some [120])); (17, VUnsigned 4096); (58, VUnsigned 5); (3, VString (Some [97; 98]))] |}) /\
  notes ex_s = Ok [(3, VString (Some [120])); (17, VUnsigned 4096); (58, VUnsigned 5); (3, VString (Some [97; 98]))].
Proof. split; [vm_compute; reflexivity|]. split; [intros b X; discriminate X|]. split; [intros b X; discriminate X|]. split; [exact ex_enc|]. split; vm_compute; reflexivity. Qed.

Print Assumptions C62_section.
Print Assumptions C62_unit.
Print Assumptions C62_skip.
Print Assumptions C62_terminates.
Print Assumptions C62_terminates_entries.
Print Assumptions C62_terminates_abbrevs.
Print Assumptions C62_addrx_refuted.
Print Assumptions C62_addrx2_refuted.
Print Assumptions C62_implicit_const_refuted.
Print Assumptions C62_line_strp_refuted.
Print Assumptions C62_abbrev_code_refuted.
