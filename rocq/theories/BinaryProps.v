(** C66: create_gcov from the bytes of the binary. *)
From Coq Require Import Sorted Permutation String.
From Verif Require Import Base ByteModel ZMap SymbolModel SymbolSpec SymbolProofs ElideModel AddrModel AddrProps SampleModel SampleSpec SampleProofs SampleProps
  ProfileSpec AfdoModel AfdoSpec CreateModel CreateSpec CreateProps
  RangeMapModel DwLineModel DwLineSpec DwTreeModel DwTreeSpec DieModel DieSpec PrepModel PrepSpec PrepProps
  ElfModel ElfSpec ElfProps BinaryModel BinarySpec.

(** *** The specification depends on the stacks of the bytes of functions only *)
Section Ext.
  Variables (segs : list seg) (funcs : list (name * Z * Z)) (orig : name -> name) (base : Z -> Z) (st1 st2 : Z -> list sinfo)
    (dup : sinfo -> Z) (use_lbr : bool) (s : samples).
  Hypothesis EXT : forall f a, In f funcs -> In a (func_addrs f) -> st1 a = st2 a.
  Lemma scaled_ext f a : In f funcs -> In a (func_addrs f) ->
    scaled segs st1 dup use_lbr s f a = scaled segs st2 dup use_lbr s f a.
  Proof. intros I J. unfold scaled. rewrite (EXT f a I J). reflexivity. Qed.
  Lemma func_total_ext f : In f funcs -> func_total segs st1 dup use_lbr s f = func_total segs st2 dup use_lbr s f.
  Proof.
    intros I. unfold func_total, sum_over.
    assert (G : forall l, (forall a, In a l -> In a (func_addrs f)) ->
      fold_right (fun a acc => scaled segs st1 dup use_lbr s f a + acc) 0 l = fold_right (fun a acc => scaled segs st2 dup use_lbr s f a + acc) 0 l).
    { induction l as [|a l IH]; intros H; [reflexivity|]. cbn [fold_right]. rewrite IH by (intros; apply H; right; auto).
      rewrite scaled_ext; auto. apply H. left. auto. }
    apply G. auto.
  Qed.
  Lemma hottest_ext f q l : In f funcs -> hottest segs base st1 dup use_lbr s f q l = hottest segs base st2 dup use_lbr s f q l.
  Proof.
    intros I. unfold hottest, max_over.
    assert (G : forall r, (forall a, In a r -> In a (func_addrs f)) ->
      fold_right (fun a acc => Z.max (if located base st1 a q l then scaled segs st1 dup use_lbr s f a else 0) acc) 0 r =
      fold_right (fun a acc => Z.max (if located base st2 a q l then scaled segs st2 dup use_lbr s f a else 0) acc) 0 r).
    { induction r as [|a r IH]; intros H; [reflexivity|]. cbn [fold_right]. rewrite IH by (intros; apply H; right; auto).
      assert (Ia : In a (func_addrs f)) by (apply H; left; auto). rewrite scaled_ext by auto.
      unfold located. rewrite (EXT f a I Ia). reflexivity. }
    apply G. auto.
  Qed.
  Lemma expected_count_ext n q l :
    expected_count segs funcs orig base st1 dup use_lbr s n q l = expected_count segs funcs orig base st2 dup use_lbr s n q l.
  Proof.
    unfold expected_count. f_equal. apply sum_of_ext. intros f I. unfold parts in I. apply filter_In in I. apply hottest_ext. apply I.
  Qed.
  Lemma in_profile_ext threshold n :
    in_profile segs funcs orig st1 dup use_lbr s threshold n <-> in_profile segs funcs orig st2 dup use_lbr s threshold n.
  Proof.
    unfold in_profile. rewrite (sum_of_ext (func_total segs st1 dup use_lbr s) (func_total segs st2 dup use_lbr s)); [reflexivity|].
    intros f I. unfold parts in I. apply filter_In in I. apply func_total_ext. apply I.
  Qed.
  Lemma fits_ext version : debug_info_fits funcs orig base st2 version -> debug_info_fits funcs orig base st1 version.
  Proof. intros [A B]. split; [|exact B]. intros f a i I J K. rewrite (EXT f a I J) in K. eapply A; eauto. Qed.
End Ext.

(** *** The parts of the binary *)
Lemma sec_content is64 h shs phs stridx f page n o el : elf_file is64 h shs phs stridx f -> named_sections page f shs stridx ->
  section_content page f shs stridx n o -> open_elf f = Ok (Some el) -> GetSectionContentsByName page f el false (text n) = Ok o.
Proof.
  intros E NM S O. destruct (C65_section_by_name is64 h shs phs stridx f page false (text n) E NM) as (el' & O' & A & B).
  rewrite O in O'. injection O' as <-. destruct S as [[-> H]|(i & s & bs & -> & M & MP & F & AT & L)].
  - apply A. exact H.
  - destruct (B i s M MP F) as [_ C]. apply C; assumption.
Qed.
Lemma sections_loaded is64 h shs phs stridx f page e el : elf_file is64 h shs phs stridx f -> named_sections page f shs stridx ->
  debug_info_is page f shs stridx e -> open_elf f = Ok (Some el) -> exists r, load_sections page f el = Ok (e, r).
Proof.
  intros E NM (D1 & D2 & D3 & D4 & D5 & D6 & D7 & o & D8) O. unfold load_sections.
  change n_line with (text ".debug_line"%string). change n_abbrev with (text ".debug_abbrev"%string). change n_info with (text ".debug_info"%string).
  change n_str with (text ".debug_str"%string). change n_ranges with (text ".debug_ranges"%string). change n_addr with (text ".debug_addr"%string).
  change n_rnglists with (text ".debug_rnglists"%string). change n_line_str with (text ".debug_line_str"%string).
  rewrite !(sec_content is64 h shs phs stridx f page _ _ el E NM D6 O), !(sec_content is64 h shs phs stridx f page _ _ el E NM D2 O),
    !(sec_content is64 h shs phs stridx f page _ _ el E NM D1 O), !(sec_content is64 h shs phs stridx f page _ _ el E NM D3 O),
    !(sec_content is64 h shs phs stridx f page _ _ el E NM D7 O), !(sec_content is64 h shs phs stridx f page _ _ el E NM D5 O),
    !(sec_content is64 h shs phs stridx f page _ _ el E NM D8 O), !(sec_content is64 h shs phs stridx f page _ _ el E NM D4 O).
  cbn [obind]. eexists. destruct e; reflexivity.
Qed.
Lemma frame_sinfo s : sinfo_of s = frame_of s.
Proof. destruct s as [[[[[n dir] file] start] line] disc]. reflexivity. Qed.

Section Stacks.
  Variables (e : PrepModel.elf) (vaddr : Z) (us : list dunit) (lus : list unit_) (ds : list (Z * cu * die)) (forest : DwTreeSpec.forest)
    (kept : list sequence).
  Hypothesis V0 : 0 <= vaddr.
  Hypothesis WR : written LittleEndian e us lus ds.
  Hypothesis RU : reads_units ds forest.
  Hypothesis ND : NoDup (map n_offset (nodes forest)).
  Hypothesis GF : good_forest vaddr forest.
  Hypothesis SQ : sequences vaddr lus kept.
  Variables (junk : option (list Z)) (rng5 : list Z -> bool -> Z -> Z -> Z -> Z -> outcome (list (Z * Z)))
    (split : list Z -> istate -> outcome istate) (f : list Z) (el : ElfModel.elf) (r : list Z).
  Lemma stack_computed a st : inline_stack vaddr forest kept a st ->
    exists fuel0, forall fuel, (fuel0 <= fuel)%nat -> binary_stack junk rng5 split fuel f el e r vaddr a = Ok st.
  Proof.
    intros [place path fs PO SA FR|dir file line disc PO NW|PO].
    - destruct (C63_stack LittleEndian e vaddr junk (rng5 r) split (if el_64 el then 8 else 4) us lus ds forest kept a place path fs
        V0 WR RU ND GF SQ PO SA FR) as (fuel0 & H). exists fuel0. intros fuel L. unfold binary_stack. rewrite (H fuel L), (map_ext _ _ frame_sinfo).
      reflexivity.
    - exists O. intros fuel _. unfold binary_stack.
      rewrite (C63_nowhere LittleEndian e vaddr junk (rng5 r) split _ us lus ds forest kept a dir file line disc fuel V0 WR RU ND GF SQ PO NW). reflexivity.
    - exists O. intros fuel _. unfold binary_stack.
      rewrite (C63_no_position LittleEndian e vaddr junk (rng5 r) split _ us lus ds forest kept a fuel V0 WR RU GF SQ PO). reflexivity.
  Qed.
  Lemma stacks_computed stack_of l : (forall a, In a l -> inline_stack vaddr forest kept a (stack_of a)) ->
    exists fuel0, forall fuel, (fuel0 <= fuel)%nat -> forall a, In a l -> binary_stack junk rng5 split fuel f el e r vaddr a = Ok (stack_of a).
  Proof.
    induction l as [|a l IH]; intros H; [exists O; intros ? _ ? []|].
    destruct IH as (f1 & H1); [intros; apply H; right; auto|]. destruct (stack_computed a (stack_of a)) as (f2 & H2); [apply H; left; auto|].
    exists (max f1 f2). intros fuel L x [<-|I]; [apply H2; lia|apply H1; auto; lia].
  Qed.
End Stacks.

Lemma all_ok_spec stack l : (forall a, In a l -> exists st, stack a = Ok st) -> all_ok stack l = Ok tt.
Proof.
  induction l as [|a l IH]; intros H; [reflexivity|]. cbn [all_ok]. destruct (H a (or_introl eq_refl)) as (st & ->). cbn [obind].
  apply IH. intros x I. apply H. right. exact I.
Qed.
Lemma flags_odd x : negb (Z.land x 1 =? 0) = Z.odd x.
Proof.
  change 1 with (Z.ones 1). rewrite Z.land_ones by lia. change (2 ^ 1) with 2. rewrite Zmod_odd. destruct (Z.odd x); reflexivity.
Qed.
Lemma exec_headers phs :
  map (fun p => (ph_offset p, ph_vaddr p)) (filter (fun p => ph_load p && ph_exec p) (map phdr_of phs)) =
  map (fun g => (sg_off g, sg_vaddr g)) (executable_segments phs).
Proof.
  unfold executable_segments. rewrite map_map. cbn [sg_off sg_vaddr].
  induction phs as [|p l IH]; [reflexivity|]. cbn [map filter].
  change (ph_load (phdr_of p)) with (p_type p =? 1). change (ph_exec (phdr_of p)) with (negb (Z.land (p_flags p) 1 =? 0)). rewrite flags_odd.
  destruct ((p_type p =? 1) && Z.odd (p_flags p)); cbn [map]; rewrite IH; reflexivity.
Qed.
Lemma addresses_In syms a : In a (addresses syms) <-> exists f, In f syms /\ In a (func_addrs f).
Proof.
  unfold addresses. rewrite in_flat_map. split; intros (f & I & J); exists f; (split; [exact I|]); destruct f as [[n x] z]; exact J.
Qed.

(** A binary and a sample file become the file GCC reads. *)
Theorem C66_from_the_binary :
  forall is64 h shs phs stridx binary page static dynamic funcs e us lus ds forest kept stack_of
    junk rng5 split pol use_lbr frac version extras_of s aux,
  let orig := GetOriginalName pol in
  let threshold := threshold_of frac s in
  let segs := executable_segments phs in
  let vaddr := load_address h phs in
  (* the binary *)
  elf_file is64 h shs phs stridx binary -> (e_phnum h = 65535 -> e_shnum h = 0) -> named_sections page binary shs stridx ->
  symbols_of is64 page binary shs 2 static -> symbols_of is64 page binary shs 11 dynamic ->
  names_apart binary shs (static ++ dynamic) -> functions_are h (static ++ dynamic) funcs -> funcs_ok funcs ->
  laid_out segs -> Forall aligned segs ->
  (* its debugging information *)
  debug_info_is page binary shs stridx e -> written LittleEndian e us lus ds -> reads_units ds forest ->
  NoDup (map n_offset (nodes forest)) -> good_forest vaddr forest -> sequences vaddr lus kept ->
  (forall f a, In f funcs -> In a (func_addrs f) -> inline_stack vaddr forest kept a (stack_of a)) ->
  debug_info_fits funcs orig (fun d => d) stack_of version ->
  (forall f, In f funcs -> orig (f_name f) <> []) ->
  (forall f a i, In f funcs -> In a (func_addrs f) -> In i (removelast (stack_of a)) -> si_func i <> []) ->
  (* the samples *)
  samples_ok s -> fits_file s -> samples_in_segments segs s ->
  0 <= version < 2 ^ 32 -> (forall m, extras_fit version (extras_of m)) ->
  exists fuel0, forall fuel, (fuel0 <= fuel)%nat ->
  exists bytes,
    create_gcov_binary page junk rng5 split fuel pol use_lbr frac version extras_of binary (Write s aux) = Ok (Some bytes) /\
    (zlen bytes < 2 ^ 32 -> forall force alloc, 0 <= alloc ->
     exists r, ReadFromFile (fun d => d) orig force alloc bytes empty_map = Ok r /\
      forall n,
        (sm_find (af_map r) n <> None <-> in_profile segs funcs orig stack_of (fun _ => 1) use_lbr s threshold n) /\
        forall s', sm_find (af_map r) n = Some s' ->
          (forall q l, count_at s' q l = expected_count segs funcs orig (fun d => d) stack_of (fun _ => 1) use_lbr s n q l) /\
          head_at s' [] = expected_entry segs funcs orig use_lbr s threshold n).
Proof.
  intros is64 h shs phs stridx binary page static dynamic funcs e us lus ds forest kept stack_of
    junk rng5 split pol use_lbr frac version extras_of s aux orig threshold segs vaddr
    E PN NM S2 S11 NA FA FOK LO AL DI WR RU ND GF SQ IS DF NE NI SOK FF SS V XF.
  destruct (C65_function_symbols is64 h shs phs stridx binary page static dynamic E NM S2 S11 NA) as (keep & K & BS).
  destruct (C65_segments is64 h shs phs stridx binary E PN) as (el & O & SG & VA).
  destruct (sections_loaded is64 h shs phs stridx binary page e el E NM DI O) as (r & LS).
  set (syms := map (fun x => (fst x, symbol_address h (snd x), st_size (snd x))) (filter keep (static ++ dynamic))) in *.
  assert (SAME : forall f, In f syms <-> In f funcs).
  { intros f. rewrite (FA f). unfold syms. rewrite in_map_iff. split.
    - intros ([n sy] & <- & I). apply filter_In in I. destruct I as [I Q]. exists n, sy. split; [exact I|]. split; [|reflexivity].
      apply (K (n, sy)); assumption.
    - intros (n & sy & I & FS & ->). exists (n, sy). split; [reflexivity|]. apply filter_In. split; [exact I|]. apply K; assumption. }
  assert (PH : Forall (phdr_fits is64) phs) by apply E.
  assert (V0 : 0 <= vaddr).
  { unfold vaddr, load_address. destruct (e_type h =? 1); [lia|]. destruct (find _ phs) as [p|] eqn:F; [|lia].
    apply find_some in F. destruct F as [F _]. rewrite Forall_forall in PH. specialize (PH p F).
    unfold phdr_fits, num in PH. intuition lia. }
  assert (HO : forall p, In p (map phdr_of phs) -> 0 <= ph_offset p < 2 ^ 64).
  { intros p I. apply in_map_iff in I. destruct I as (q & <- & I). rewrite Forall_forall in PH. specialize (PH q I).
    cbn [phdr_of ph_offset]. destruct PH as (_ & _ & PH & _). unfold num, wide in PH.
    destruct is64.
    - change (256 ^ Z.of_nat 8) with (2 ^ 64) in PH. exact PH.
    - change (256 ^ Z.of_nat 4) with (2 ^ 32) in PH. lia. }
  destruct (stacks_computed e vaddr us lus ds forest kept V0 WR RU ND GF SQ junk rng5 split binary el r stack_of (addresses syms)) as (fuel0 & ST).
  { intros a I. apply addresses_In in I. destruct I as (f & If & Ia). apply (IS f); [apply SAME; exact If|exact Ia]. }
  exists fuel0. intros fuel L. specialize (ST fuel L).
  set (st := fun a => match binary_stack junk rng5 split fuel binary el e r vaddr a with Ok l => l | _ => [] end).
  assert (EXT : forall f a, In f funcs -> In a (func_addrs f) -> st a = stack_of a).
  { intros f a If Ia. unfold st. rewrite ST; [reflexivity|]. apply addresses_In. exists f. split; [apply SAME; exact If|exact Ia]. }
  assert (RUN : create_gcov_binary page junk rng5 split fuel pol use_lbr frac version extras_of binary (Write s aux) =
    create_gcov (fun d => d) pol st (fun _ => 1) use_lbr frac version extras_of syms (map phdr_of phs) false (Write s aux)).
  { unfold create_gcov_binary. rewrite BS. cbn [obind]. rewrite O. cbn [obind]. rewrite SG. cbn [obind]. rewrite LS. cbn [obind].
    rewrite VA. cbn [obind]. fold vaddr. change (if e_type h =? 1 then 0 else match find (fun p => p_type p =? 1) phs with Some p => p_vaddr p | None => 0 end) with vaddr.
    rewrite all_ok_spec; [reflexivity|]. intros a I. exists (stack_of a). apply ST. exact I. }
  destruct (C64_succeeds (fun d => d) pol st (fun _ => 1) use_lbr frac version extras_of syms funcs (map phdr_of phs) segs s aux
    SOK FF SAME FOK LO AL SS HO (exec_headers phs)) as (bytes & CR).
  { intros f If. split; [apply NE; exact If|]. apply DF. exact If. }
  { intros f a i If Ia Ii. rewrite (EXT f a If Ia) in Ii. eapply NI; eauto. }
  exists bytes. split; [rewrite RUN; exact CR|]. intros LB force alloc A.
  destruct (C64_gcov_file (fun d => d) pol st (fun _ => 1) use_lbr frac version extras_of syms funcs (map phdr_of phs) segs s aux bytes force alloc
    SOK FF SAME FOK LO AL SS HO (exec_headers phs) (fits_ext funcs orig (fun d => d) st stack_of EXT version DF) XF V A CR LB) as (rd & ER & X).
  exists rd. split; [exact ER|]. intros n. destruct (X n) as [X1 X2]. split.
  - rewrite X1. apply in_profile_ext. exact EXT.
  - intros s' F. destruct (X2 s' F) as [X3 X4]. split; [|exact X4]. intros q l. rewrite X3. apply expected_count_ext. exact EXT.
Qed.
Print Assumptions C66_from_the_binary.
