(** C63: from the bytes of the sections to the inline stack of an address. *)
From Coq Require Import Sorted Permutation.
From Verif Require Import Base ByteModel ByteSpec ISort RangeMapModel DwarfRangesSpec DwLineModel DwLineSpec DwLineProofs DwLineLoop DwLineMap DwLineProps
  DwTreeModel DwTreeSpec DwTreeWalk DwTreeBad DwTreeGood DwTreePop DwTreeProofs DwTreeProps DieModel DieSpec DieProofs DieProps PrepModel PrepSpec PrepProofs.

(** .debug_info and .debug_abbrev hold the units [us]; they say the entries [ds]; their
    line tables are [lus]. *)
Definition written (en : endian) (e : elf) (us : list dunit) (lus : list unit_) (ds : list (Z * cu * die)) : Prop :=
  zlen (e_info e) < 2 ^ 64 /\ bytes_in (e_addr e) /\ us <> [] /\ enc_units en (die_sections e) 0 us (e_info e) /\ decodes_units en e us lus ds.
(** The rows of the line tables form the sequences [seqs]; those of the binary are [kept] (as in C60). *)
Definition sequences (vaddr : Z) (lus : list unit_) (kept : list sequence) : Prop :=
  exists seqs, concat (map unit_rows lus) = concat (map rows_of seqs) /\
  Forall (fun s => (forall r, In r (rows_of s) -> vaddr <= fst r) \/ (forall r, In r (rows_of s) -> fst r < vaddr)) seqs /\
  kept = filter (fun s => vaddr <=? snd s) seqs /\ Forall good_sequence kept /\ all_apart kept /\ no_late_end kept.
(** The source position of an address. *)
Definition position (kept : list sequence) (x : Z) (p : option (list Z * list Z * Z * Z)) : Prop :=
  (exists s, In s kept /\ in_sequence s x /\ p = with_source (row_at (fst s) x)) \/ ((forall s, In s kept -> ~ in_sequence s x) /\ p = None).

Lemma kept_rows vaddr (seqs : list sequence) : Forall (fun s => (forall r, In r (rows_of s) -> vaddr <= fst r) \/ (forall r, In r (rows_of s) -> fst r < vaddr)) seqs ->
  filter (fun r : Z * option (list Z * list Z * Z * Z) => vaddr <=? fst r) (concat (map rows_of seqs)) = concat (map rows_of (filter (fun s : sequence => vaddr <=? snd s) seqs)).
Proof.
  intros SIDE. induction seqs as [|s seqs IH]; [reflexivity|]. inversion SIDE as [|? ? S1 S2]; subst. cbn [map concat filter]. rewrite filter_app, (IH S2).
  assert (EIN : In (snd s, None) (rows_of s)) by (apply in_or_app; right; left; reflexivity).
  destruct S1 as [A|A]; pose proof (A _ EIN) as Q; cbn [fst] in Q.
  - destruct (Z.leb_spec vaddr (snd s)); [|lia]. cbn [map concat]. f_equal. clear - A. induction (rows_of s) as [|r l IH]; [reflexivity|]. cbn [filter]. pose proof (A r (or_introl eq_refl)). destruct (Z.leb_spec vaddr (fst r)); [|lia]. f_equal. apply IH. intros r' Hr'. apply A. right. exact Hr'.
  - destruct (Z.leb_spec vaddr (snd s)); [lia|]. cbn [map concat]. clear - A. induction (rows_of s) as [|r l IH]; [reflexivity|]. cbn [filter]. pose proof (A r (or_introl eq_refl)). destruct (Z.leb_spec vaddr (fst r)); [lia|]. apply IH. intros r' Hr'. apply A. right. exact Hr'.
Qed.
Lemma position_found vaddr lus kept x p : sequences vaddr lus kept -> position kept x p -> lookup x (fold_left (add_row vaddr) (concat (map unit_rows lus)) linemap0) = Ok p.
Proof.
  intros (seqs & ER & SIDE & EK & GS & AP & NL) PO. pose proof (holds_all vaddr (concat (map unit_rows lus)) [] linemap0 holds_nil) as HO. cbn [app] in HO. subst kept. rewrite ER, kept_rows in HO by exact SIDE. rewrite ER.
  destruct (lookup_sequences _ _ HO GS AP NL) as (L1 & L2). destruct PO as [(s & S1 & S2 & ->)|(S1 & ->)]; [apply L1; assumption|apply L2; exact S1].
Qed.
Lemma prepared en e vaddr junk rng5 split width us lus ds t m : written en e us lus ds -> read_dies ds state0 = Ok t -> PopulateSubprogramsByAddress vaddr t = Ok m ->
  Prepare en e vaddr junk rng5 split width = Ok (t, fold_left (add_row vaddr) (concat (map unit_rows lus)) linemap0, m).
Proof.
  intros (L & BA & NE & EN & DU) RD PO. destruct (units_visited en e vaddr junk rng5 split us lus ds DU 0 (e_info e) istate0 t EN RD) as (st' & V & T & LM).
  assert (RU : ReadUnits en (inline_handler en e vaddr junk rng5 split) (die_sections e) istate0 = Ok st') by (apply (C62_section en (die_sections e) _ us); [exact L|intros b Q; discriminate Q|exact BA|exact EN|exact V]).
  unfold Prepare. assert (NI : e_info e <> []). { intros Q. revert EN. rewrite Q. intros EN. inversion EN as [|? ? ? b bs EU ES]; [congruence|]. match goal with H : b ++ bs = [] |- _ => apply app_eq_nil in H; destruct H as (-> & _) end. clear - EU. remember (@nil Z) as nl eqn:EL. destruct EU as [offset version asz osz len il hb ao pre tab post decls trees bs' H1 H2 H3 H4 H5 H6 H7 H8 H9 H10]. apply app_eq_nil in EL. destruct EL as (_ & EL). apply app_eq_nil in EL. destruct EL as (_ & EL). contradiction. }
  destruct (e_info e) as [|b0 l0]; [contradiction|]. rewrite RU. cbn [obind]. rewrite T, PO. cbn [obind]. rewrite LM. reflexivity.
Qed.

(** An address in a function of the binary has the stack that the debugging information describes. *)
Theorem C63_stack en e vaddr junk rng5 split width us lus ds f kept x place path fs : 0 <= vaddr -> written en e us lus ds ->
  reads_units ds f -> NoDup (map n_offset (nodes f)) -> good_forest vaddr f -> sequences vaddr lus kept ->
  position kept x (Some place) -> stack_at vaddr x f path -> frames f place path fs ->
  exists fuel0, forall fuel, (fuel0 <= fuel)%nat -> InlineStack en e vaddr junk rng5 split width fuel x = Some (Ok fs).
Proof.
  intros V0 WR RU ND GF SQ PO SA FR. destruct (C61_stack vaddr ds f _ x place path fs V0 RU ND GF SA (position_found _ _ _ _ _ SQ PO) FR) as (st & m & fuel0 & RD & PP & GI). exists fuel0. intros fuel L. unfold InlineStack. rewrite (prepared en e vaddr junk rng5 split width us lus ds st m WR RD PP). apply GI. exact L.
Qed.
(** Outside of all functions: the position alone. *)
Theorem C63_nowhere en e vaddr junk rng5 split width us lus ds f kept x dir file line disc fuel : 0 <= vaddr -> written en e us lus ds ->
  reads_units ds f -> NoDup (map n_offset (nodes f)) -> good_forest vaddr f -> sequences vaddr lus kept ->
  position kept x (Some (dir, file, line, disc)) -> nowhere vaddr x f ->
  InlineStack en e vaddr junk rng5 split width fuel x = Some (Ok [(None, dir, file, 0, line, disc)]).
Proof.
  intros V0 WR RU ND GF SQ PO NW. destruct (C61_nowhere vaddr ds f _ x dir file line disc fuel V0 RU ND GF NW (position_found _ _ _ _ _ SQ PO)) as (st & m & RD & PP & GI). unfold InlineStack. rewrite (prepared en e vaddr junk rng5 split width us lus ds st m WR RD PP). exact GI.
Qed.
(** No position: the empty stack. *)
Theorem C63_no_position en e vaddr junk rng5 split width us lus ds f kept x fuel : 0 <= vaddr -> written en e us lus ds ->
  reads_units ds f -> good_forest vaddr f -> sequences vaddr lus kept -> position kept x None ->
  InlineStack en e vaddr junk rng5 split width fuel x = Some (Ok []).
Proof.
  intros V0 WR RU GF SQ PO. destruct (state_read ds f RU) as (st & RD & OB & BO & OD). assert (PL : placed st None None O f) by (apply (placed_objects st f None None [] []); cbn [app length]; rewrite app_nil_r; exact OB).
  destruct (populated vaddr st f V0 PL OD GF (units_sorted ds f RU)) as (m & PP & GS). unfold InlineStack. rewrite (prepared en e vaddr junk rng5 split width us lus ds st m WR RD PP). apply C61_no_position. exact (position_found _ _ _ _ _ SQ PO).
Qed.

(** *** A concrete case: f calls g at line 5, which is inlined; its line table is that of C60's example *)
Definition ex_e : elf := {|
  e_info := [62; 0; 0; 0; 4; 0; 0; 0; 0; 0; 8] ++ [1; 47; 99; 0; 0; 16; 0; 0; 0; 0; 0; 0; 3; 0; 0; 0] ++ [4; 103; 0; 9; 1; 156] ++
    [2; 1; 0; 0; 0; 3; 0; 16; 0; 0; 0; 0; 0; 0; 9; 0; 0; 0] ++ [5] ++ [3; 27; 0; 0; 0; 2; 0; 0; 0; 1; 5] ++ [0; 0; 0];
  e_abbrev := Some ([1; 17; 1; 27; 8; 17; 1; 16; 23; 0; 0] ++ [2; 46; 1; 3; 14; 59; 11; 17; 1; 18; 6; 0; 0] ++ [3; 29; 0; 49; 19; 85; 23; 88; 11; 89; 11; 0; 0] ++
    [4; 46; 0; 3; 8; 59; 11; 64; 24; 0; 0] ++ [5; 11; 1; 0; 0] ++ [0]);
  e_str := Some [0; 102; 0]; e_line_str := None; e_addr := None; e_line := Some ([7; 7; 7] ++ unit0_bytes 4096 4112 ++ [1; 2]);
  e_ranges := Some ([0; 0] ++ enc4_list LittleEndian 8 [R4Pair 3 8] ++ [])|}.
Definition at_ n f : decl_attr := {| a_name := n; a_form := f; a_const := 0 |}.
Definition xd1 : decl := {| d_tag := 17; d_children := true; d_attrs := [at_ 27 8; at_ 17 1; at_ 16 23] |}.
Definition xd2 : decl := {| d_tag := 46; d_children := true; d_attrs := [at_ 3 14; at_ 59 11; at_ 17 1; at_ 18 6] |}.
Definition xd3 : decl := {| d_tag := 29; d_children := false; d_attrs := [at_ 49 19; at_ 85 23; at_ 88 11; at_ 89 11] |}.
Definition xd4 : decl := {| d_tag := 46; d_children := false; d_attrs := [at_ 3 8; at_ 59 11; at_ 64 24] |}.
Definition xd5 : decl := {| d_tag := 11; d_children := true; d_attrs := [] |}.
Definition xi1 := [(8, IString [47; 99]); (1, IUnsigned 4096); (23, IUnsigned 3)].
Definition xi2 := [(14, IStrp 1); (11, IUnsigned 3); (1, IUnsigned 4096); (6, IUnsigned 9)].
Definition xi3 := [(19, IUnsigned 27); (23, IUnsigned 2); (11, IUnsigned 1); (11, IUnsigned 5)].
Definition xi4 := [(8, IString [103]); (11, IUnsigned 9); (24, IBlock [156])].
Definition xt := Tree 11 xd1 xi1 [Tree 27 xd4 xi4 []; Tree 33 xd2 xi2 [Tree 51 xd5 [] [Tree 52 xd3 xi3 []]]].
Definition xu : dunit := {| u_offset := 0; u_length := 62; DieSpec.u_version := 4; u_asz := 8; u_osz := 4; u_trees := [xt] |}.
Ltac attr1 n := apply (da_attr _ _ [n] _ []); cbn [a_name a_form at_]; [ul|lia|ul|lia|lia|reflexivity|].
Ltac da n f rest := apply (da_attr (at_ n f) _ [n] [f] [] rest); cbn [a_name a_form at_]; [ul|lia|ul|lia|lia|reflexivity|].
Lemma xenc : enc_units LittleEndian (die_sections ex_e) 0 [xu] (e_info ex_e).
Proof.
  apply (un_cons _ _ 0 xu [] (e_info ex_e) []); [|apply un_nil].
  apply (DieSpec.eu LittleEndian (die_sections ex_e) 0 4 8 4 62 [62; 0; 0; 0] [4; 0; 0; 0; 0; 0; 8] 0 [] (match e_abbrev ex_e with Some b => b | None => [] end) [] [xd1; xd2; xd3; xd4; xd5]).
  - left. split; [reflexivity|]. split; [fx|lia].
  - reflexivity.
  - right. reflexivity.
  - apply (eh_old _ 4 8 4 0 [4; 0] [0; 0; 0; 0]); [lia|fx|fx].
  - intros X. discriminate X.
  - reflexivity.
  - reflexivity.
  - cbn [e_abbrev ex_e].
    apply (ds_decl 1 xd1 _ [1] [17] 1 [27; 8; 17; 1; 16; 23; 0; 0] ([2; 46; 1; 3; 14; 59; 11; 17; 1; 18; 6; 0; 0] ++ [3; 29; 0; 49; 19; 85; 23; 88; 11; 89; 11; 0; 0] ++ [4; 46; 0; 3; 8; 59; 11; 64; 24; 0; 0] ++ [5; 11; 1; 0; 0] ++ [0])); [ul|lia|ul|cbn [d_tag xd1]; lia|reflexivity| |].
    { da 27 8 [17; 1; 16; 23; 0; 0]. da 17 1 [16; 23; 0; 0]. da 16 23 [0; 0]. apply (da_end [0] [0]); ul. }
    apply (ds_decl 2 xd2 _ [2] [46] 1 [3; 14; 59; 11; 17; 1; 18; 6; 0; 0] ([3; 29; 0; 49; 19; 85; 23; 88; 11; 89; 11; 0; 0] ++ [4; 46; 0; 3; 8; 59; 11; 64; 24; 0; 0] ++ [5; 11; 1; 0; 0] ++ [0])); [ul|lia|ul|cbn [d_tag xd2]; lia|reflexivity| |].
    { da 3 14 [59; 11; 17; 1; 18; 6; 0; 0]. da 59 11 [17; 1; 18; 6; 0; 0]. da 17 1 [18; 6; 0; 0]. da 18 6 [0; 0]. apply (da_end [0] [0]); ul. }
    apply (ds_decl 3 xd3 _ [3] [29] 0 [49; 19; 85; 23; 88; 11; 89; 11; 0; 0] ([4; 46; 0; 3; 8; 59; 11; 64; 24; 0; 0] ++ [5; 11; 1; 0; 0] ++ [0])); [ul|lia|ul|cbn [d_tag xd3]; lia|reflexivity| |].
    { da 49 19 [85; 23; 88; 11; 89; 11; 0; 0]. da 85 23 [88; 11; 89; 11; 0; 0]. da 88 11 [89; 11; 0; 0]. da 89 11 [0; 0]. apply (da_end [0] [0]); ul. }
    apply (ds_decl 4 xd4 _ [4] [46] 0 [3; 8; 59; 11; 64; 24; 0; 0] ([5; 11; 1; 0; 0] ++ [0])); [ul|lia|ul|cbn [d_tag xd4]; lia|reflexivity| |].
    { da 3 8 [59; 11; 64; 24; 0; 0]. da 59 11 [64; 24; 0; 0]. da 64 24 [0; 0]. apply (da_end [0] [0]); ul. }
    apply (ds_decl 5 xd5 _ [5] [11] 1 [0; 0] [0]); [ul|lia|ul|cbn [d_tag xd5]; lia|reflexivity| |apply ds_end; ul]. apply (da_end [0] [0]); ul.
  - apply (eo_cons _ _ _ _ _ _ xt [] ([1; 47; 99; 0; 0; 16; 0; 0; 0; 0; 0; 0; 3; 0; 0; 0] ++ ([4; 103; 0; 9; 1; 156] ++ [2; 1; 0; 0; 0; 3; 0; 16; 0; 0; 0; 0; 0; 0; 9; 0; 0; 0] ++ [5] ++ [3; 27; 0; 0; 0; 2; 0; 0; 0; 1; 5] ++ [0; 0]) ++ [0]) []); [|apply eo_nil].
    apply (et_node _ _ _ _ _ 11 1 xd1 xi1 _ [1] [47; 99; 0; 0; 16; 0; 0; 0; 0; 0; 0; 3; 0; 0; 0] ([4; 103; 0; 9; 1; 156] ++ [2; 1; 0; 0; 0; 3; 0; 16; 0; 0; 0; 0; 0; 0; 9; 0; 0; 0] ++ [5] ++ [3; 27; 0; 0; 0; 2; 0; 0; 0; 1; 5] ++ [0; 0]) [0]); [ul|lia|reflexivity|reflexivity| | |ul].
    { apply (ei_cons _ _ _ _ _ _ ([47; 99] ++ [0]) [0; 16; 0; 0; 0; 0; 0; 0; 3; 0; 0; 0]); [apply ev_string; repeat apply Forall_cons; try apply Forall_nil; lia|]. apply (ei_cons _ _ _ _ _ _ [0; 16; 0; 0; 0; 0; 0; 0] [3; 0; 0; 0]); [apply ev_addr; fx|]. apply (ei_cons _ _ _ _ _ _ [3; 0; 0; 0] []); [apply ev_sec_offset; fx|apply ei_nil]. }
    change (11 + zlen [1] + zlen [47; 99; 0; 0; 16; 0; 0; 0; 0; 0; 0; 3; 0; 0; 0]) with 27. apply (es_cons _ _ _ _ _ 27 _ _ [4; 103; 0; 9; 1; 156]).
    { apply (et_leaf _ _ _ _ _ 27 4 xd4 xi4 [4] [103; 0; 9; 1; 156]); [ul|lia|reflexivity|reflexivity|]. apply (ei_cons _ _ _ _ _ _ ([103] ++ [0]) [9; 1; 156]); [apply ev_string; repeat apply Forall_cons; try apply Forall_nil; lia|]. apply (ei_cons _ _ _ _ _ _ [9] [1; 156]); [apply (ev_fixed _ _ _ _ _ 1); [cbn; auto 20|fx]|]. apply (ei_cons _ _ _ _ _ _ ([1] ++ [156]) []); [apply (ev_block_leb _ _ _ _ 24 [1] [156]); [cbn; auto|ul]|apply ei_nil]. }
    apply (es_cons _ _ _ _ _ 33 _ _ ([2; 1; 0; 0; 0; 3; 0; 16; 0; 0; 0; 0; 0; 0; 9; 0; 0; 0] ++ [5] ++ [3; 27; 0; 0; 0; 2; 0; 0; 0; 1; 5] ++ [0; 0]) []); [|apply es_nil].
    apply (et_node _ _ _ _ _ 33 2 xd2 xi2 _ [2] [1; 0; 0; 0; 3; 0; 16; 0; 0; 0; 0; 0; 0; 9; 0; 0; 0] ([5] ++ [3; 27; 0; 0; 0; 2; 0; 0; 0; 1; 5] ++ [0]) [0]); [ul|lia|reflexivity|reflexivity| | |ul].
    { apply (ei_cons _ _ _ _ _ _ [1; 0; 0; 0] [3; 0; 16; 0; 0; 0; 0; 0; 0; 9; 0; 0; 0]); [apply ev_strp; fx|]. apply (ei_cons _ _ _ _ _ _ [3] [0; 16; 0; 0; 0; 0; 0; 0; 9; 0; 0; 0]); [apply (ev_fixed _ _ _ _ _ 1); [cbn; auto 20|fx]|]. apply (ei_cons _ _ _ _ _ _ [0; 16; 0; 0; 0; 0; 0; 0] [9; 0; 0; 0]); [apply ev_addr; fx|]. apply (ei_cons _ _ _ _ _ _ [9; 0; 0; 0] []); [apply (ev_fixed _ _ _ _ _ 4); [cbn; auto 20|fx]|apply ei_nil]. }
    apply (es_cons _ _ _ _ _ 51 _ _ ([5] ++ [3; 27; 0; 0; 0; 2; 0; 0; 0; 1; 5] ++ [0]) []); [|apply es_nil].
    apply (et_node _ _ _ _ _ 51 5 xd5 [] _ [5] [] [3; 27; 0; 0; 0; 2; 0; 0; 0; 1; 5] [0]); [ul|lia|reflexivity|reflexivity|apply ei_nil| |ul].
    apply (es_cons _ _ _ _ _ 52 _ _ [3; 27; 0; 0; 0; 2; 0; 0; 0; 1; 5] []); [|apply es_nil].
    apply (et_leaf _ _ _ _ _ 52 3 xd3 xi3 [3] [27; 0; 0; 0; 2; 0; 0; 0; 1; 5]); [ul|lia|reflexivity|reflexivity|].
    apply (ei_cons _ _ _ _ _ _ [27; 0; 0; 0] [2; 0; 0; 0; 1; 5]); [apply (ev_fixed _ _ _ _ _ 4); [cbn; auto 20|fx]|]. apply (ei_cons _ _ _ _ _ _ [2; 0; 0; 0] [1; 5]); [apply ev_sec_offset; fx|]. apply (ei_cons _ _ _ _ _ _ [1] [5]); [apply (ev_fixed _ _ _ _ _ 1); [cbn; auto 20|fx]|]. apply (ei_cons _ _ _ _ _ _ [5] []); [apply (ev_fixed _ _ _ _ _ 1); [cbn; auto 20|fx]|apply ei_nil].
  - discriminate.
Qed.
Definition xnames : cu := {| dirs := [[]; [100]]; files := [(0, []); (1, [97]); (0, [98])] |}.
Definition xkids : list die :=
  [Die 27 TagSubprogram [AName [103]; ADeclLine false 9] [];
   Die 33 TagSubprogram [AName [102]; ADeclLine false 3; ALowPc 4096; AHighPc 9 true]
     [Die 51 TagOther [] [Die 52 TagInlined [AAbstractOrigin false 27; ARanges [(4099, 4104)]; ACallFile false 1; ACallLine false 5] []]]].
Definition xdies := [(0, xnames, Die 11 TagUnit [ACompDir [47; 99]] xkids)].
Definition xg := node1 27 false [103] [] 9 0 0 None.
Definition xf := node1 33 false [102] [(4096, 4105)] 3 0 0 None.
Definition xc := node1 52 true [] [(4099, 4104)] 5 0 27 (Some ([100], [97])).
Definition xforest := FCons xg FNil (FCons xf (FCons xc FNil FNil) FNil).
Lemma is_one base a l real it its y ys : attr_says LittleEndian ex_e xu base a real it [y] -> items_say LittleEndian ex_e xu base l its ys -> items_say LittleEndian ex_e xu base (a :: l) ((real, it) :: its) (y :: ys).
Proof. intros A B. exact (is_cons _ _ _ _ _ _ _ _ _ [y] ys A B). Qed.
Lemma xwritten : written LittleEndian ex_e [xu] [DwLineProps.unit0 4096 4112] xdies.
Proof.
  split; [vm_compute; reflexivity|]. split; [intros b Q; discriminate Q|]. split; [discriminate|]. split; [exact xenc|].
  apply (dus_cons _ _ xu [] [DwLineProps.unit0 4096 4112] []); [|apply dus_nil].
  apply (du _ _ xu 11 xd1 xi1 [Tree 27 xd4 xi4 []; Tree 33 xd2 xi2 [Tree 51 xd5 [] [Tree 52 xd3 xi3 []]]] [FDir [47; 99]; FLow 4096; FLines 3] [47; 99] (Some 4096) (Some 3)); try reflexivity.
  - left. reflexivity.
  - apply fa_cons; [apply us_dir; [reflexivity|apply tx_here]|]. apply fa_cons; [apply us_low; reflexivity|]. apply fa_cons; [apply us_lines; reflexivity|apply fa_nil].
  - change xnames with (names_of (DwLineProps.unit0 4096 4112)). apply (lo_some _ _ _ _ (DwLineProps.unit0 4096 4112) 3 [7; 7; 7] (unit0_bytes 4096 4112) [1; 2]); [reflexivity|reflexivity|reflexivity|apply enc_unit0; lia|apply good_unit0].
  - apply dc_sub; [reflexivity| |apply dc_nil|].
    + apply is_one; [apply as_name; [reflexivity|apply tx_here]|]. apply is_one; [apply as_decl_line; reflexivity|]. apply (is_cons _ _ _ _ _ _ _ _ _ [] []); [|apply is_nil]. apply as_other; [cbn; lia|apply rb_block].
    + apply dc_sub; [reflexivity| | |apply dc_nil].
      * apply is_one; [apply as_name; [reflexivity|apply tx_strp; exists [0], []; split; [reflexivity|]; split; [reflexivity|cbn; lia]]|]. apply is_one; [apply as_decl_line; reflexivity|]. apply is_one; [apply as_low; reflexivity|]. apply is_one; [apply as_high_length; [reflexivity|lia]|]. apply is_nil.
      * apply dc_other; [cbn; lia|apply Forall_nil| |apply dc_nil]. apply dc_inl; [reflexivity| |apply dc_nil|apply dc_nil].
        apply is_one; [apply (as_origin _ _ _ _ _ _ _ false); reflexivity|]. apply is_one; [|apply is_one; [apply as_call_file; reflexivity|apply is_one; [apply as_call_line; [reflexivity|cbn; auto]|apply is_nil]]].
        change [(4099, 4104)] with (denote4 4096 [R4Pair 3 8]). apply (as_ranges _ _ _ _ _ _ 2 [0; 0] _ []); [reflexivity|cbn; auto|cbn; lia|reflexivity|reflexivity|]. repeat constructor; cbn; lia.
Qed.
Lemma xreads : reads_units xdies xforest.
Proof.
  change xforest with (fapp xforest FNil). constructor; [|constructor]. apply (ru 0 xnames 11 [ACompDir [47; 99]] xkids [47; 99] xforest).
  - exists [], []. split; reflexivity.
  - repeat constructor.
  - unfold xkids, xforest, xg, xf, xc, node1.
    apply rd_sub; [|constructor|apply rd_sub; [| |constructor]].
    + split; [reflexivity|]. split; [right; left; split; [reflexivity|try_only]|]. split; [left; split; reflexivity|]. split; [split; [reflexivity|left; try_only]|]. split; [right; split; reflexivity|]. split; [right; split; reflexivity|]. split; [right; split; reflexivity|]. split; [left; split; reflexivity|]. cbn; lia.
    + split; [reflexivity|]. split; [right; left; split; [reflexivity|try_only]|]. split; [right; right; exists [AName [102]; ADeclLine false 3], [], [], 4096, 9, true; repeat split; try reflexivity; lia|].
      split; [split; [reflexivity|left; try_only]|]. split; [right; split; reflexivity|]. split; [right; split; reflexivity|]. split; [right; split; reflexivity|]. split; [left; split; reflexivity|]. cbn; lia.
    + match goal with |- reads _ _ _ _ (FCons ?n FNil FNil) => apply (rd_other 0 xnames [47; 99] 51 [] _ [] (FCons n FNil FNil) FNil); [|constructor] end. apply rd_inl; [|constructor|constructor].
      split; [reflexivity|]. split; [right; right; split; [reflexivity|split; reflexivity]|]. split; [right; left; exists [(4099, 4104)]; split; [try_only|split; [apply Permutation_refl|split; [constructor; constructor|constructor; [cbn; lia|constructor]]]]|].
      split; [left; exists false; try_only|]. split; [right; split; reflexivity|]. split; [left; exists false, 27; split; [try_only|reflexivity]|]. split; [right; split; reflexivity|]. split; [right; exists false, 1, 1, [97], [100]; split; [try_only|repeat split; try reflexivity; lia]|]. cbn; lia.
Qed.
Lemma xlive : live 4096 (xf, FCons xc FNil FNil).
Proof.
  split; [reflexivity|]. split; [discriminate|]. split; [constructor; [cbn; lia|constructor]|]. split; [reflexivity|]. split; [intros q H; inn; cbn; lia|]. split; [|split; [exact Logic.I|split; [constructor|exact Logic.I]]]. intros r H. inn. exists (4096, 4105). cbn. split; [tauto|lia].
Qed.
Example C63_nonvacuous :
  written LittleEndian ex_e [xu] [DwLineProps.unit0 4096 4112] xdies /\ reads_units xdies xforest /\ NoDup (map n_offset (nodes xforest)) /\ good_forest 4096 xforest /\
  sequences 4096 [DwLineProps.unit0 4096 4112] seqs0 /\ position seqs0 4103 (Some ([100], [97], 12, 3)) /\ stack_at 4096 4103 xforest [xc; xf] /\
  frames xforest ([100], [97], 12, 3) [xc; xf] [(Some [103], [47; 99; 47; 100], [97], 9, 12, 3); (Some [102], [47; 99; 47; 100], [97], 3, 5, 0)] /\
  InlineStack LittleEndian ex_e 4096 None (fun _ _ _ _ _ => Abort) (fun _ _ => Abort) 8 5 4103 = Some (Ok [(Some [103], [47; 99; 47; 100], [97], 9, 12, 3); (Some [102], [47; 99; 47; 100], [97], 3, 5, 0)]) /\
  position seqs0 4112 (Some ([], [98], 2, 0)) /\ nowhere 4096 4112 xforest /\ position seqs0 4108 None.
Proof.
  split; [exact xwritten|]. split; [exact xreads|]. split; [cbn; repeat (constructor; [cbn; lia|]); constructor|].
  split. { cbn [good_forest xforest]. split; [left; split; [reflexivity|left; intros r []]|]. split; [right; split; [exact xlive|intros t []]|exact Logic.I]. }
  split. { exists seqs0. pose proof C60_nonvacuous as (_ & _ & A & B & C & D & E & F & _). split; [exact A|]. split; [exact B|]. split; [symmetry; exact C|]. split; [exact D|]. split; [exact E|exact F]. }
  split. { left. eexists. split; [left; reflexivity|]. split; [split; cbn; lia|reflexivity]. }
  split. { apply (sa 4096 4103 xforest (xf, FCons xc FNil FNil)); [right; left; reflexivity|exact xlive|]. cbn [fst snd]. apply (in_deeper 4103 xf _ FNil [xc]); [exists (4096, 4105); cbn; split; [tauto|lia]|]. apply in_here; [exists (4099, 4104); cbn; split; [tauto|lia]|]. intros m []. }
  split. { assert (FC : function_is xforest xc [103] 9). { apply (fi xforest xc xg xg); [|apply or_ref; [discriminate|split; [cbn; tauto|reflexivity]]]. apply (de_origin xforest xc xg xg); [left; reflexivity|reflexivity|discriminate|split; [cbn; tauto|reflexivity]|apply de_self; discriminate]. }
    assert (FF : function_is xforest xf [102] 3) by (apply (fi xforest xf xf xf); [apply de_self; discriminate|apply or_self; reflexivity]).
    apply (fr xforest ([100], [97], 12, 3) xc [xf] [103] 9); [exact FC|]. apply (cf_call xforest xc xf [] [102] 3 [100] [97]); [reflexivity|exact FF|reflexivity|]. constructor. reflexivity. }
  split; [vm_compute; reflexivity|].
  split. { left. eexists. split; [right; left; reflexivity|]. split; [split; cbn; lia|reflexivity]. }
  split. { intros t H L (r & Hr & B). cbn in H. destruct H as [<-|[<-|[]]]; inn; cbn in B; lia. }
  right. split; [|reflexivity]. intros s [<-|[<-|[]]] (A & B); cbn in A, B; lia.
Qed.

(** *** Without .debug_info *)
Inductive line_section (en : endian) (width : Z) : list unit_ -> list Z -> Prop :=
| ls_nil : line_section en width [] []
| ls_cons lu osz b lus bs : encoded_unit en width osz lu b -> good_unit lu -> line_section en width lus bs -> line_section en width (lu :: lus) (b ++ bs).
Lemma at_pos_app a b : DieModel.at_pos (zlen a) (a ++ b) = b.
Proof.
  unfold DieModel.at_pos, zlen. rewrite Nat2Z.id, skipn_app, skipn_all, Nat.sub_diag. cbn [app skipn]. destruct (Z.ltb_spec (Z.of_nat (length a)) (Z.of_nat (length (a ++ b)))) as [_|Q]; [reflexivity|]. rewrite app_length in Q. destruct b; [reflexivity|cbn [length] in Q; lia].
Qed.
Lemma section_read en width vaddr lus bs : width = 4 \/ width = 8 -> line_section en width lus bs -> forall fuel m, (length bs <= fuel)%nat ->
  read_line_section en vaddr fuel width bs m = Ok (fold_left (add_row vaddr) (concat (map unit_rows lus)) m).
Proof.
  intros W LS. induction LS as [|lu osz b lus bs EU GU LS IH]; intros fuel m L; [destruct fuel; reflexivity|].
  assert (NE : b <> []). { intros Q. destruct EU as [il ver hl mx st lb tail dirs_ files_ prog H1 H2 H3 H4 H5 H6 H7 H8 H9 H10 H11 H12]. apply app_eq_nil in Q. destruct Q as (_ & Q). apply app_eq_nil in Q. destruct Q as (-> & _). destruct H2 as (Q & _). discriminate Q. }
  assert (ZB : 1 <= zlen b) by (destruct b; [contradiction|rewrite zlen_cons; pose proof (zlen_nonneg b); lia]).
  pose proof GU as (GP & SE & LD & LF & _). destruct (header_read en width osz W None None lu b bs EU GP LD LF) as (h & pre & prog & _ & _ & _ & RH).
  pose proof (start_read en width osz true W None None lu b bs (3 * length (b ++ bs) + 2) EU GP LD LF SE ltac:(rewrite app_length; lia)) as ST.
  destruct b as [|b0 b]; [contradiction|]. destruct fuel as [|fuel]; [cbn in L; lia|]. cbn [app] in *. cbn [read_line_section]. rewrite RH, ST. cbn [obind]. rewrite (handle_unit_names vaddr lu m GU). cbn [obind]. destruct (Z.eqb_spec (zlen (b0 :: b)) 0); [lia|].
  change (b0 :: b ++ bs) with ((b0 :: b) ++ bs). rewrite at_pos_app. rewrite IH by (cbn [length] in L; rewrite app_length in L; lia). cbn [map concat]. rewrite fold_left_app. reflexivity.
Qed.
(** A binary with line tables alone: the position of the address, without a function. *)
Theorem C63_lines_only en e vaddr junk rng5 split width lus bs kept x p fuel : width = 4 \/ width = 8 -> e_info e = [] -> e_line e = Some bs -> line_section en width lus bs ->
  sequences vaddr lus kept -> position kept x p ->
  InlineStack en e vaddr junk rng5 split width fuel x = Some (Ok (match p with Some (dir, file, line, disc) => [(None, dir, file, 0, line, disc)] | None => [] end)).
Proof.
  intros W EI EL LS SQ PO. unfold InlineStack, Prepare. rewrite EI, EL. rewrite (section_read en width vaddr lus bs W LS) by apply Nat.le_refl. cbn [obind].
  change (PopulateSubprogramsByAddress vaddr state0) with (Ok (@nil (rentry nat))). cbn [obind]. unfold GetInlineStack. rewrite (position_found _ _ _ _ _ SQ PO). cbn [obind2]. destruct p as [[[[dir file] line] disc]|]; reflexivity.
Qed.
Example C63_lines_nonvacuous : line_section LittleEndian 8 [DwLineProps.unit0 4096 4112; DwLineProps.unit0 8192 8208] (unit0_bytes 4096 4112 ++ unit0_bytes 8192 8208 ++ []) /\
  InlineStack LittleEndian {| e_info := []; e_abbrev := None; e_str := None; e_line_str := None; e_addr := None; e_line := Some (unit0_bytes 4096 4112 ++ unit0_bytes 8192 8208); e_ranges := None |}
    4096 None (fun _ _ _ _ _ => Abort) (fun _ _ => Abort) 8 0 8199 = Some (Ok [(None, [100], [97], 0, 12, 3)]).
Proof.
  split; [|vm_compute; reflexivity]. apply (ls_cons _ _ _ 4); [apply enc_unit0; lia|apply good_unit0|]. apply (ls_cons _ _ _ 4); [apply enc_unit0; lia|apply good_unit0|apply ls_nil].
Qed.

(** *** Limits *)
(** .debug_str_offsets is not loaded: a unit of version 5 whose entry has an indexed string (the way clang writes the
    name of the producer and of the unit) ends the program. *)
Theorem C63_strx_refuted : exists e attrs items body, items = [(0x25, IStrx 0)] /\ map a_name attrs = [0x03] /\
  enc_units LittleEndian (die_sections e) 0 [one_unit 17 attrs items body] (e_info e) /\
  forall vaddr junk rng5 split width, Prepare LittleEndian e vaddr junk rng5 split width = Abort.
Proof.
  exists {| e_info := s_info (one 17 [3; 37] [0] None None None); e_abbrev := s_abbrev (one 17 [3; 37] [0] None None None); e_str := Some [97; 0]; e_line_str := None; e_addr := None; e_line := None; e_ranges := None |},
    [{| a_name := 3; a_form := 37; a_const := 0 |}], [(0x25, IStrx 0)], [0].
  split; [reflexivity|]. split; [reflexivity|]. split; [|intros; vm_compute; reflexivity].
  apply (one_enc 17 [{| a_name := 3; a_form := 37; a_const := 0 |}] [(0x25, IStrx 0)] [3; 37] [0] None (Some [97; 0]) None); [lia|reflexivity|discriminate| |].
  - apply (da_attr _ _ [3] [37] [] [0; 0]); cbn [a_name a_form]; [ul|lia|ul|lia|lia|reflexivity|]. apply (da_end [0] [0]); ul.
  - apply (ei_cons _ _ _ _ _ _ [0] []); [apply (ev_strxn _ _ _ _ _ 1); [cbn; auto|fx]|apply ei_nil].
Qed.

Print Assumptions C63_stack.
Print Assumptions C63_nowhere.
Print Assumptions C63_no_position.
Print Assumptions C63_lines_only.
Print Assumptions C63_strx_refuted.
