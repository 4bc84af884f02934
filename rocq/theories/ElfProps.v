(** C65: what is read from an ELF file is what is in it. *)
From Coq Require Import Ascii String.
From Verif Require Import Base ByteSpec DwarfRangesSpec SymbolModel SymbolProofs ElfModel ElfSpec ElfProofs ElfReadProofs.

(** a file is taken for an ELF file if it starts like a little endian one *)
Theorem C65_recognised f :
  open_elf f = Ok None <->
  ~ (16 <= zlen f /\ exists class rest, (class = 1 \/ class = 2) /\ f = [127; 69; 76; 70; class; 1] ++ rest).
Proof.
  assert (S : forall b, IsArchElfFile b f = true <->
            (16 <= zlen f /\ exists rest, f = [127; 69; 76; 70; (if b then 2 else 1); 1] ++ rest)).
  { intros b. unfold IsArchElfFile, pread.
    change (0 + 16) with 16. destruct (Z.leb_spec 16 (zlen f)) as [L|L]; [|split; [discriminate|lia]].
    assert (X : (16 <= List.length f)%nat) by (unfold zlen in L; lia).
    do 16 (destruct f as [|? f]; [cbn in X; lia|]). clear X.
    unfold slice. change (Z.to_nat 16) with 16%nat. change (Z.to_nat 4) with 4%nat. change (Z.to_nat 0) with 0%nat. cbn [skipn firstn nth].
    rewrite !Bool.andb_true_iff, !Z.eqb_eq.
    split.
    - intros [[M C] D]. split; [exact L|].
      match type of M with name_eqb ?a ?b = true => destruct (name_eqb_spec a b) as [M'|]; [|discriminate] end.
      injection M' as -> -> -> ->. rewrite C, D. eexists. reflexivity.
    - intros [_ (r & E)]. injection E as -> -> -> -> -> -> _. repeat split; reflexivity. }
  unfold open_elf. split.
  - intros H (L & class & rest & [-> | ->] & E).
    + assert (Q : IsArchElfFile false f = true) by (apply S; split; [exact L|exists rest; exact E]).
      rewrite Q in H. destruct (ParseHeaders false f); discriminate.
    + assert (Q : IsArchElfFile true f = true) by (apply S; split; [exact L|exists rest; exact E]).
      destruct (IsArchElfFile false f); [destruct (ParseHeaders false f); discriminate|].
      rewrite Q in H. destruct (ParseHeaders true f); discriminate.
  - intros H. destruct (IsArchElfFile false f) eqn:E1.
    { exfalso. apply H. apply S in E1. destruct E1 as (L & r & E). split; [exact L|]. exists 1, r. auto. }
    destruct (IsArchElfFile true f) eqn:E2; [|reflexivity].
    exfalso. apply H. apply S in E2. destruct E2 as (L & r & E). split; [exact L|]. exists 2, r. auto.
Qed.

Lemma elf_stridx is64 h shs phs stridx f : elf_file is64 h shs phs stridx f ->
  0 <= stridx < zlen shs /\ Forall (shdr_fits is64) shs /\ zlen shs < 2 ^ 24.
Proof.
  intros (FH & FS & FP & _ & _ & _ & _ & _ & (first & rest & _ & _ & _ & _ & _ & _ & C) & N & _). auto.
Qed.

(** the segments are those of the program header table *)
Theorem C65_segments is64 h shs phs stridx f :
  elf_file is64 h shs phs stridx f -> (e_phnum h = 65535 -> e_shnum h = 0) ->
  exists el, open_elf f = Ok (Some el) /\ GetSegmentInfo el = Ok phs /\
    VaddrOfFirstLoadSegment el =
      Ok (if e_type h =? 1 then 0 else match find (fun p => p_type p =? 1) phs with Some p => p_vaddr p | None => 0 end).
Proof.
  intros E X. destruct (open_reads _ _ _ _ _ _ E) as (el & O & R). exists el. split; [exact O|].
  destruct R as (_ & RH & _ & _ & _ & RP).
  destruct RP as [RP1 RP2]; [destruct (Z.eq_dec (e_phnum h) 65535); auto|].
  assert (G : GetSegmentInfo el = Ok phs).
  { unfold GetSegmentInfo. rewrite RP1, RP2. cbv zeta. destruct (Z.leb_spec (zlen phs) 0) as [L|L]; [|reflexivity].
    destruct phs; [reflexivity|]. unfold zlen in L; cbn [List.length] in L; lia. }
  split; [exact G|]. unfold VaddrOfFirstLoadSegment. rewrite RH, G. destruct (e_type h =? 1); reflexivity.
Qed.
Print Assumptions C65_segments.

(** a section is found by its name: the first with that name, the last one in a
    .dwp package *)
Theorem C65_section_by_name is64 h shs phs stridx f page dwp n :
  elf_file is64 h shs phs stridx f -> named_sections page f shs stridx ->
  exists el, open_elf f = Ok (Some el) /\
    ((forall i s, ~ section_matches f shs stridx n i s) ->
       GetSectionInfoByName page f el dwp n = Ok None /\ GetSectionContentsByName page f el dwp n = Ok None) /\
    (forall i s, section_matches f shs stridx n i s -> mappable page s ->
       (forall j s', section_matches f shs stridx n j s' -> if dwp then (j <= i)%nat else (i <= j)%nat) ->
       GetSectionInfoByName page f el dwp n = Ok (Some s) /\
       forall bs, at_offset f (sh_offset s) bs -> zlen bs = sh_size s ->
         GetSectionContentsByName page f el dwp n = Ok (Some bs)).
Proof.
  intros E (P & STR & NM). destruct (open_reads _ _ _ _ _ _ E) as (el & O & R). exists el. split; [exact O|].
  destruct (elf_stridx _ _ _ _ _ _ E) as (SI & FS & _).
  assert (LS : forall i s, section_matches f shs stridx n i s -> (i < List.length shs)%nat).
  { intros i s (sn & N & _). apply nth_error_Some. congruence. }
  assert (NL : 0 + Z.of_nat (Z.to_nat (zlen shs)) = zlen shs) by (unfold zlen; lia).
  destruct (by_name_spec page f el is64 h shs phs stridx R SI P FS STR NM dwp n (Z.to_nat (zlen shs)) 0 ltac:(lia) NL) as [B1 B2].
  assert (G : GetSectionInfoByName page f el dwp n = by_name page f el dwp (Z.to_nat (zlen shs)) 0 n).
  { unfold GetSectionInfoByName. destruct R as (_ & _ & _ & -> & _). reflexivity. }
  split.
  - intros H. assert (Q : GetSectionInfoByName page f el dwp n = Ok None) by (rewrite G; apply B1; auto).
    split; [exact Q|]. unfold GetSectionContentsByName. rewrite Q. reflexivity.
  - intros i s M MP H. pose proof (LS _ _ M) as L.
    assert (Q : GetSectionInfoByName page f el dwp n = Ok (Some s)).
    { rewrite G. apply (B2 (if dwp then zlen shs - Z.of_nat i - 1 else Z.of_nat i)).
      - unfold zlen. destruct dwp; lia.
      - replace (Z.to_nat (if dwp then zlen shs - (if dwp then zlen shs - Z.of_nat i - 1 else Z.of_nat i) - 1
                           else if dwp then zlen shs - Z.of_nat i - 1 else Z.of_nat i)) with i; [exact M|].
        unfold zlen. destruct dwp; lia.
      - exact MP.
      - intros k s' K M'. specialize (H _ _ M'). pose proof (LS _ _ M'). unfold zlen in *. destruct dwp; lia. }
    split; [exact Q|]. intros bs A L'. unfold GetSectionContentsByName. rewrite Q. cbn [obind].
    rewrite (slice_at _ _ _ _ A L'). reflexivity.
Qed.
Print Assumptions C65_section_by_name.

Lemma adjust_spec el h s : el_hdr el = h -> AdjustSymbolValue el s = symbol_address h s.
Proof.
  intros <-. unfold AdjustSymbolValue, symbol_address, st_type.
  change 15 with (Z.ones 4). rewrite Z.land_ones by lia. change (2 ^ 4) with 16.
  destruct ((e_machine (el_hdr el) =? 40) && (st_info s mod 16 =? 2)); [|reflexivity]. cbn [andb].
  change (-2) with (Z.lnot (Z.ones 1)). rewrite <- Z.ldiff_land, Z.ldiff_ones_r by lia.
  rewrite Z.shiftl_mul_pow2, Z.shiftr_div_pow2 by lia. change (2 ^ 1) with 2.
  pose proof (Z.div_mod (st_value s) 2 ltac:(lia)). rewrite Zmod_odd in H. destruct (Z.odd (st_value s)); lia.
Qed.

(** all the symbols that have a name, those of .symtab first *)
Theorem C65_symbols is64 h shs phs stridx f page static dynamic :
  elf_file is64 h shs phs stridx f -> named_sections page f shs stridx ->
  symbols_of is64 page f shs 2 static -> symbols_of is64 page f shs 11 dynamic ->
  exists el l, open_elf f = Ok (Some el) /\ VisitSymbols page f el (fun _ _ => Ok true) = Ok l /\
    map (fun e => (fst e, st_value (snd e), st_size (snd e), st_info (snd e))) l =
    map (fun e => (fst e, symbol_address h (snd e), st_size (snd e), st_info (snd e))) (static ++ dynamic).
Proof.
  intros E (P & STR & NM) S2 S11. destruct (open_reads _ _ _ _ _ _ E) as (el & O & R). 
  destruct (elf_stridx _ _ _ _ _ _ E) as (SI & FS & SM).
  exists el. eexists. split; [exact O|]. unfold VisitSymbols.
  rewrite (visit_type_spec page f el is64 h shs phs stridx R (fun _ _ => Ok true) (fun _ _ => true) SI P FS STR NM SM 2 static S2) by reflexivity.
  rewrite (visit_type_spec page f el is64 h shs phs stridx R (fun _ _ => Ok true) (fun _ _ => true) SI P FS STR NM SM 11 dynamic S11) by reflexivity.
  cbn [obind]. split; [reflexivity|].
  assert (T : forall A (l : list A), filter (fun _ => true) l = l) by (intros A l; induction l; cbn; congruence).
  rewrite !T, <- map_app, map_map. apply map_ext. intros [n s]. unfold adjusted. cbn [fst snd st_value st_size st_info].
  rewrite (adjust_spec el h); [reflexivity|apply R].
Qed.
Print Assumptions C65_symbols.

Lemma named_in f str syms named : named_symbols f str syms named -> forall e, In e named -> In (snd e) syms.
Proof.
  induction 1 as [|s l r Z0 NS IH|s l n r Z0 SI NS IH]; intros e H; [contradiction| |].
  - right. apply IH, H.
  - destruct H as [<-|H]; [left; reflexivity|right; apply IH, H].
Qed.
Lemma symbols_info is64 page f shs t named : symbols_of is64 page f shs t named -> forall e, In e named -> 0 <= st_info (snd e).
Proof.
  intros [[_ ->]|(b & sec & a & str & syms & _ & _ & _ & _ & _ & _ & _ & (F & _) & NS)] e H; [contradiction|].
  apply (named_in _ _ _ _ NS) in H. rewrite Forall_forall in F. apply F in H. destruct H as (_ & H & _). unfold num in H. lia.
Qed.

(** the symbol map of a binary holds its functions *)
Theorem C65_function_symbols is64 h shs phs stridx f page static dynamic :
  elf_file is64 h shs phs stridx f -> named_sections page f shs stridx ->
  symbols_of is64 page f shs 2 static -> symbols_of is64 page f shs 11 dynamic ->
  names_apart f shs (static ++ dynamic) ->
  exists keep,
    (forall e, In e (static ++ dynamic) -> keep e = true <-> function_symbol (fst e) (snd e)) /\
    binary_symbols page f =
      Ok (map (fun e => (fst e, symbol_address h (snd e), st_size (snd e))) (filter keep (static ++ dynamic))).
Proof.
  intros E (P & STR & NM) S2 S11 A. destruct (open_reads _ _ _ _ _ _ E) as (el & O & R). 
  destruct (elf_stridx _ _ _ _ _ _ E) as (SI & FS & SM).
  exists (fun e => keep_function (fst e) (snd e)). split.
  { intros e H. apply keep_function_spec. apply in_app_iff in H. destruct H as [H|H]; [exact (symbols_info _ _ _ _ _ _ S2 _ H)|exact (symbols_info _ _ _ _ _ _ S11 _ H)]. }
  unfold binary_symbols. rewrite O. cbn [obind]. unfold VisitSymbols.
  assert (FL : forall s n str, In (n, s) (static ++ dynamic) -> In str shs -> 0 <= st_name s -> 52 <= sh_offset str ->
       string_is f (sh_offset str + st_name s) n -> symbol_filter f (sh_offset str + st_name s) s = Ok (keep_function n s)).
  { intros s n str I1 I2 L1 L2 S. apply symbol_filter_spec; [lia|exact S|].
    intros L. apply (A n s str); assumption. }
  rewrite (visit_type_spec page f el is64 h shs phs stridx R (symbol_filter f) keep_function SI P FS STR NM SM 2 static S2) by (intros; apply FL; [apply in_app_iff; left|..]; assumption).
  rewrite (visit_type_spec page f el is64 h shs phs stridx R (symbol_filter f) keep_function SI P FS STR NM SM 11 dynamic S11) by (intros; apply FL; [apply in_app_iff; right|..]; assumption).
  cbn [obind]. f_equal. rewrite <- map_app, <- filter_app, map_map. apply map_ext. intros [n s]. unfold adjusted. cbn [fst snd st_value st_size].
  rewrite (adjust_spec el h); [reflexivity|apply R].
Qed.
Print Assumptions C65_function_symbols.

(** the build id is that of the only note that has one *)
Theorem C65_build_id is64 h shs phs stridx f page ns ids :
  elf_file is64 h shs phs stridx f -> named_sections page f shs stridx ->
  file_notes f page shs ns -> build_ids ns ids ->
  exists el, open_elf f = Ok (Some el) /\
    ElfModel.GetBuildId page f el = Ok (match ids with [d] => hex_of d | _ => [] end).
Proof.
  intros E (P & STR & NM) FN B. destruct (open_reads _ _ _ _ _ _ E) as (el & O & R). exists el. split; [exact O|].
  destruct (elf_stridx _ _ _ _ _ _ E) as (SI & FS & SM).
  apply (get_build_id page f el is64 h shs phs stridx R SI P FS STR NM ns); assumption.
Qed.
Print Assumptions C65_build_id.

(** *** a file *)
Definition bytes_of (s : string) : list Z := List.map (fun c => Z.of_N (N_of_ascii c)) (list_ascii_of_string s).
Definition strs (l : list string) : list Z := List.concat (List.map (fun s => bytes_of s ++ [0]) l).
Definition x_strtab := strs [""; "main"; "helper.cold"; "f@plt"; "data"]%string.
Definition x_shstrtab := strs [""; ".text"; ".symtab"; ".strtab"; ".shstrtab"; ".note"; ".debug_x"]%string.
Definition x_note : note := ([71; 78; 85; 0], 3, [1; 171; 16]).
Definition x_sym n i v z : elfsym := {| st_name := n; st_info := i; st_other := 0; st_shndx := 1; st_value := v; st_size := z |}.
(** a local symbol without a name, main, helper.cold (no type), f@plt, data *)
Definition x_syms : list elfsym :=
  [x_sym 0 0 0 0; x_sym 1 18 4096 32; x_sym 6 0 8192 8; x_sym 18 18 4128 16; x_sym 24 17 12288 4].
Definition x_shdr n t o z l e : shdr :=
  {| sh_name := n; sh_type := t; sh_flags := 0; sh_addr := 0; sh_offset := o; sh_size := z; sh_link := l; sh_info := 0;
     sh_addralign := 1; sh_entsize := e |}.
Definition x_phdr : segment :=
  {| p_type := 1; p_flags := 5; p_offset := 0; p_vaddr := 4194304; p_paddr := 4194304; p_filesz := 1000; p_memsz := 1000; p_align := 4096 |}.
Definition x_data (syms : list elfsym) : list Z :=
  x_strtab ++ x_shstrtab ++ List.concat (List.map (enc_sym true) syms) ++ enc_note x_note.
Definition x_shs (syms : list elfsym) : list shdr :=
  let o1 := 64 + zlen x_strtab in let o2 := o1 + zlen x_shstrtab in let o3 := o2 + 24 * zlen syms in
  [x_shdr 0 0 0 0 0 0; x_shdr 1 1 4096 0 0 0; x_shdr 7 2 o2 (24 * zlen syms) 3 24; x_shdr 15 3 64 (zlen x_strtab) 0 0;
   x_shdr 23 3 o1 (zlen x_shstrtab) 0 0; x_shdr 33 7 o3 20 0 0].
Definition x_hdr (syms : list elfsym) : ehdr :=
  let so := 64 + zlen (x_data syms) in
  {| e_type := 3; e_machine := 62; e_phoff := so + 64 * 6; e_shoff := so; e_phnum := 1; e_shnum := 6; e_shstrndx := 4 |}.
Definition x_file (syms : list elfsym) : list Z :=
  enc_ehdr true (x_hdr syms) (repeat 0 10) 1 4096 0 64 56 64 ++ x_data syms
  ++ List.concat (List.map (enc_shdr true) (x_shs syms)) ++ enc_phdr true x_phdr.

Definition at_offsetb (f : list Z) (off : Z) (bs : list Z) : bool :=
  (0 <=? off) && (off <=? zlen f) && name_eqb (slice f off (zlen bs)) bs.
Lemma at_offsetb_spec f off bs : at_offsetb f off bs = true -> at_offset f off bs.
Proof.
  unfold at_offsetb. rewrite !Bool.andb_true_iff, !Z.leb_le. intros [[A B] C].
  destruct (name_eqb_spec (slice f off (zlen bs)) bs) as [E|]; [|discriminate].
  exists (firstn (Z.to_nat off) f), (skipn (Z.to_nat (zlen bs)) (skipn (Z.to_nat off) f)). split.
  - rewrite <- E at 1. unfold slice. rewrite firstn_skipn. symmetry. apply firstn_skipn.
  - unfold zlen in *. rewrite firstn_length. lia.
Qed.
Ltac at_off := apply at_offsetb_spec; vm_compute; reflexivity.
Ltac nums := unfold num; split; [vm_compute; discriminate|vm_compute; reflexivity].

Lemma x_elf syms : syms = x_syms \/ syms = x_syms ++ [x_sym 20 18 4160 16] -> elf_file true (x_hdr syms) (x_shs syms) [x_phdr] 4 (x_file syms).
Proof.
  intros S. split; [destruct S as [-> | ->]; repeat split; vm_compute; try discriminate; reflexivity|].
  split; [destruct S as [-> | ->]; repeat (apply Forall_cons; [repeat split; vm_compute; try discriminate; reflexivity|]); constructor|].
  split; [repeat (apply Forall_cons; [repeat split; vm_compute; try discriminate; reflexivity|]); constructor|].
  split; [exists (repeat 0 10), 1, 4096, 0, 64, 56, 64; split; [reflexivity|destruct S as [-> | ->]; at_off]|].
  split; [right; right; reflexivity|].
  split; [destruct S as [-> | ->]; reflexivity|].
  split; [destruct S as [-> | ->]; at_off|]. split; [destruct S as [-> | ->]; at_off|].
  split; [|split; reflexivity].
  exists (x_shdr 0 0 0 0 0 0). eexists. split; [reflexivity|]. split; [reflexivity|]. split; [reflexivity|].
  split; [vm_compute; discriminate|]. split; [reflexivity|]. split; [vm_compute; discriminate|]. split; [discriminate|reflexivity].
Qed.
Lemma x_named syms : syms = x_syms \/ syms = x_syms ++ [x_sym 20 18 4160 16] -> named_sections 4096 (x_file syms) (x_shs syms) 4.
Proof.
  intros S. split; [reflexivity|]. split.
  { eexists. split; [reflexivity|]. left. reflexivity. }
  assert (X : forall s n, sh_name s <= zlen x_shstrtab ->
     string_is (x_file syms) (64 + zlen x_strtab + sh_name s) n -> exists n, section_named (x_file syms) (x_shs syms) 4 s n).
  { intros s n L H. exists n. eexists. split; [reflexivity|]. split; [exact L|exact H]. }
  intros s [<-|[<-|[<-|[<-|[<-|[<-|[]]]]]]].
  - apply (X _ []); [vm_compute; discriminate|]. split; [constructor|destruct S as [-> | ->]; at_off].
  - apply (X _ (bytes_of ".text")); [vm_compute; discriminate|]. split; [repeat constructor; discriminate|destruct S as [-> | ->]; at_off].
  - apply (X _ (bytes_of ".symtab")); [vm_compute; discriminate|]. split; [repeat constructor; discriminate|destruct S as [-> | ->]; at_off].
  - apply (X _ (bytes_of ".strtab")); [vm_compute; discriminate|]. split; [repeat constructor; discriminate|destruct S as [-> | ->]; at_off].
  - apply (X _ (bytes_of ".shstrtab")); [vm_compute; discriminate|]. split; [repeat constructor; discriminate|destruct S as [-> | ->]; at_off].
  - apply (X _ (bytes_of ".note")); [vm_compute; discriminate|]. split; [repeat constructor; discriminate|destruct S as [-> | ->]; at_off].
Qed.
Definition x_main := (bytes_of "main", x_sym 1 18 4096 32).
Definition x_cold := (bytes_of "helper.cold", x_sym 6 0 8192 8).
Definition x_plt := (bytes_of "f@plt", x_sym 18 18 4128 16).
Definition x_dat := (bytes_of "data", x_sym 24 17 12288 4).

Lemma x_symbols syms extra : (syms = x_syms /\ extra = []) \/ (syms = x_syms ++ [x_sym 20 18 4160 16] /\ extra = [(bytes_of "plt", x_sym 20 18 4160 16)]) ->
  symbols_of true 4096 (x_file syms) (x_shs syms) 2 ([x_main; x_cold; x_plt; x_dat] ++ extra).
Proof.
  intros S. right. eexists [_; _], _, _, _, syms. split; [reflexivity|].
  split; [repeat constructor; discriminate|]. split; [reflexivity|]. split; [vm_compute; split; reflexivity|].
  split; [reflexivity|].
  split; [left; destruct S as [[-> _]|[-> _]]; reflexivity|]. split; [left; reflexivity|]. split.
  - split; [destruct S as [[-> _]|[-> _]]; repeat (apply Forall_cons; [repeat split; vm_compute; try discriminate; reflexivity|]); constructor|].
    split; [destruct S as [[-> _]|[-> _]]; at_off|]. split; [reflexivity|]. split; [reflexivity|].
    split; [destruct S as [[-> _]|[-> _]]; reflexivity|vm_compute; discriminate].
  - assert (T : forall e, (let '(n, s) := e in st_name s <> 0 /\ name_eqb n (bytes_of "") = false /\ Forall (fun b => b <> 0) n /\
                at_offset (x_file syms) (64 + st_name s) (n ++ [0])) -> forall l r, 
       named_symbols (x_file syms) (x_shdr 15 3 64 (zlen x_strtab) 0 0) l r ->
       named_symbols (x_file syms) (x_shdr 15 3 64 (zlen x_strtab) 0 0) (snd e :: l) (e :: r)).
    { intros [n s] (A & _ & B & C) l r H. apply ns_name; [exact A|split; assumption|exact H]. }
    destruct S as [[-> ->]|[-> ->]]; (apply ns_skip; [reflexivity|]); cbn [app];
      repeat (match goal with |- named_symbols _ _ (?s :: _) (?e :: _) => change s with (snd e) end;
              apply T; [split; [discriminate|split; [reflexivity|split; [repeat constructor; discriminate|at_off]]]|]); apply ns_nil.
Qed.

Example C65_nonvacuous :
  elf_file true (x_hdr x_syms) (x_shs x_syms) [x_phdr] 4 (x_file x_syms) /\
  named_sections 4096 (x_file x_syms) (x_shs x_syms) 4 /\
  symbols_of true 4096 (x_file x_syms) (x_shs x_syms) 2 [x_main; x_cold; x_plt; x_dat] /\
  symbols_of true 4096 (x_file x_syms) (x_shs x_syms) 11 [] /\
  names_apart (x_file x_syms) (x_shs x_syms) ([x_main; x_cold; x_plt; x_dat] ++ []) /\
  file_notes (x_file x_syms) 4096 (x_shs x_syms) [x_note] /\ build_ids [x_note] [[1; 171; 16]] /\
  section_matches (x_file x_syms) (x_shs x_syms) 4 (bytes_of ".symtab") 2
    (x_shdr 7 2 (64 + zlen x_strtab + zlen x_shstrtab) 120 3 24) /\
  (exists el, open_elf (x_file x_syms) = Ok (Some el) /\ GetSegmentInfo el = Ok [x_phdr] /\
     ElfModel.GetBuildId 4096 (x_file x_syms) el = Ok (bytes_of "01ab10")) /\
  binary_symbols 4096 (x_file x_syms) = Ok [(bytes_of "main", 4096, 32); (bytes_of "helper.cold", 8192, 8)].
Proof.
  split; [apply x_elf; left; reflexivity|]. split; [apply x_named; left; reflexivity|].
  split; [apply (x_symbols x_syms []); left; split; reflexivity|].
  split; [left; split; [repeat constructor; discriminate|reflexivity]|].
  split.
  { intros n s str I L. exfalso. destruct I as [[= <- <-]|[[= <- <-]|[[= <- <-]|[[= <- <-]|[]]]]]; vm_compute in L; discriminate. }
  split.
  { apply fn_other; [discriminate|]. apply fn_other; [discriminate|]. apply fn_other; [discriminate|].
    apply fn_other; [discriminate|]. apply fn_other; [discriminate|].
    change [x_note] with ([x_note] ++ []). apply fn_notes; [reflexivity|left; reflexivity| |at_off|reflexivity|constructor].
    constructor; [|constructor]. split; [nums|]. split; [nums|]. split; [nums|].
    split; repeat (apply Forall_cons; [vm_compute; split; [discriminate|reflexivity]|]); constructor. }
  split.
  { apply bi_id; [split; [reflexivity|vm_compute; discriminate]|constructor]. }
  split.
  { exists (bytes_of ".symtab"). split; [reflexivity|]. split; [|left; reflexivity].
    eexists. split; [reflexivity|]. split; [vm_compute; discriminate|]. split; [repeat constructor; discriminate|at_off]. }
  split; [eexists; split; [vm_compute; reflexivity|split; vm_compute; reflexivity]|].
  vm_compute; reflexivity.
Qed.

(** Without [names_apart]: the function "plt", whose name shares the end of
    "f@plt" in the string table, is not in the symbol map. *)
Theorem C65_short_name_refuted :
  exists is64 h shs phs stridx f page static n s,
    elf_file is64 h shs phs stridx f /\ named_sections page f shs stridx /\
    symbols_of is64 page f shs 2 static /\ symbols_of is64 page f shs 11 [] /\
    In (n, s) static /\ function_symbol n s /\
    exists l, binary_symbols page f = Ok l /\ forall a z, ~ In (n, a, z) l.
Proof.
  set (syms := x_syms ++ [x_sym 20 18 4160 16]).
  exists true, (x_hdr syms), (x_shs syms), [x_phdr], 4, (x_file syms), 4096,
    ([x_main; x_cold; x_plt; x_dat] ++ [(bytes_of "plt", x_sym 20 18 4160 16)]), (bytes_of "plt"), (x_sym 20 18 4160 16).
  split; [apply x_elf; right; reflexivity|]. split; [apply x_named; right; reflexivity|].
  split; [apply x_symbols; right; split; reflexivity|]. split; [left; split; [repeat constructor; discriminate|reflexivity]|].
  split; [right; right; right; right; left; reflexivity|]. split.
  - right. split; [discriminate|]. split; [left; reflexivity|]. intros (p & E).
    apply (f_equal (@List.length Z)) in E. rewrite app_length in E. cbn in E. lia.
  - exists [(bytes_of "main", 4096, 32); (bytes_of "helper.cold", 8192, 8)]. split; [vm_compute; reflexivity|].
    intros a z [H|[H|[]]]; discriminate H.
Qed.
Print Assumptions C65_short_name_refuted.

(** Without [mappable]: asking for an empty section that starts at a page ends
    the program. *)
Theorem C65_empty_section_refuted :
  exists is64 h shs phs stridx f page n i s el,
    elf_file is64 h shs phs stridx f /\ named_sections page f shs stridx /\
    section_matches f shs stridx n i s /\ open_elf f = Ok (Some el) /\
    GetSectionInfoByName page f el false n = Abort.
Proof.
  destruct (open_reads _ _ _ _ _ _ (x_elf x_syms (or_introl eq_refl))) as (el & O & _).
  exists true, (x_hdr x_syms), (x_shs x_syms), [x_phdr], 4, (x_file x_syms), 4096, (bytes_of ".text"), 1%nat, (x_shdr 1 1 4096 0 0 0), el.
  split; [apply x_elf; left; reflexivity|]. split; [apply x_named; left; reflexivity|].
  split.
  { exists (bytes_of ".text"). split; [reflexivity|]. split; [|left; reflexivity].
    eexists. split; [reflexivity|]. split; [vm_compute; discriminate|]. split; [repeat constructor; discriminate|at_off]. }
  split; [exact O|]. vm_compute in O. injection O as <-. vm_compute. reflexivity.
Qed.
Print Assumptions C65_empty_section_refuted.

(** An executable needs no section headers; its segments cannot be asked for. *)
Theorem C65_no_section_headers_refuted :
  exists h phs f el,
    ehdr_fits true h /\ Forall (phdr_fits true) phs /\ e_type h = 2 /\ e_shoff h = 0 /\ e_shnum h = 0 /\ e_phnum h = zlen phs /\
    (exists pad, zlen pad = 10 /\ at_offset f 0 (enc_ehdr true h pad 1 0 0 64 56 64)) /\
    at_offset f (e_phoff h) (List.concat (List.map (enc_phdr true) phs)) /\
    open_elf f = Ok (Some el) /\ GetSegmentInfo el = UB.
Proof.
  set (h := {| e_type := 2; e_machine := 62; e_phoff := 64; e_shoff := 0; e_phnum := 1; e_shnum := 0; e_shstrndx := 0 |}).
  exists h, [x_phdr], (enc_ehdr true h (repeat 0 10) 1 0 0 64 56 64 ++ enc_phdr true x_phdr). eexists.
  split; [repeat split; vm_compute; try discriminate; reflexivity|].
  split; [repeat (apply Forall_cons; [repeat split; vm_compute; try discriminate; reflexivity|]); constructor|].
  split; [reflexivity|]. split; [reflexivity|]. split; [reflexivity|]. split; [reflexivity|].
  split; [exists (repeat 0 10); split; [reflexivity|at_off]|]. split; [at_off|].
  split; [vm_compute; reflexivity|]. vm_compute. reflexivity.
Qed.
Print Assumptions C65_no_section_headers_refuted.
