(** A binary for C66: the function f with g inlined into it, with its debugging
    information (that of C63's example), and samples of it. *)
From Coq Require Import Sorted Permutation String.
From Verif Require Import Base ByteModel ZMap SymbolModel SymbolSpec SymbolProofs ElideModel AddrModel AddrProps SampleModel SampleSpec SampleProofs SampleProps
  ProfileSpec SrcOffsetModel AfdoModel AfdoSpec CreateModel CreateSpec CreateProps
  RangeMapModel DwLineModel DwLineSpec DwLineProps DwTreeModel DwTreeSpec DieModel DieSpec PrepModel PrepSpec PrepProps
  ElfModel ElfSpec ElfProofs ElfReadProofs ElfProps BinaryModel BinarySpec BinaryProps.

Definition b_opt (o : option (list Z)) : list Z := match o with Some b => b | None => [] end.
Definition b_names : list string :=
  [""; ".text"; ".symtab"; ".strtab"; ".shstrtab"; ".debug_info"; ".debug_abbrev"; ".debug_str"; ".debug_line"; ".debug_ranges"]%string.
Definition b_shstrtab := strs b_names.
Definition b_strtab := strs [""; "f"]%string.
Definition b_syms : list elfsym := [x_sym 0 0 0 0; x_sym 1 18 4096 9].
Definition b_symtab := List.concat (List.map (enc_sym true) b_syms).
Definition b_parts : list (list Z) :=
  [b_symtab; b_strtab; b_shstrtab; e_info ex_e; b_opt (e_abbrev ex_e); b_opt (e_str ex_e); b_opt (e_line ex_e); b_opt (e_ranges ex_e)].
(** positions of the parts: the header and 36 bytes of code come first *)
Fixpoint b_offsets (o : Z) (l : list (list Z)) : list Z := match l with [] => [] | b :: l' => o :: b_offsets (o + zlen b) l' end.
Definition b_off (i : nat) : Z := nth i (b_offsets 100 b_parts) 0.
Definition b_len (i : nat) : Z := zlen (nth i b_parts []).
Definition b_shs : list shdr :=
  [x_shdr 0 0 0 0 0 0; x_shdr 1 1 64 36 0 0; x_shdr 7 2 (b_off 0) (b_len 0) 3 24; x_shdr 15 3 (b_off 1) (b_len 1) 0 0;
   x_shdr 23 3 (b_off 2) (b_len 2) 0 0; x_shdr 33 1 (b_off 3) (b_len 3) 0 0; x_shdr 45 1 (b_off 4) (b_len 4) 0 0;
   x_shdr 59 1 (b_off 5) (b_len 5) 0 0; x_shdr 70 1 (b_off 6) (b_len 6) 0 0; x_shdr 82 1 (b_off 7) (b_len 7) 0 0].
Definition b_end : Z := 100 + zlen (List.concat b_parts).
Definition b_phdr : segment :=
  {| p_type := 1; p_flags := 5; p_offset := 64; p_vaddr := 4096; p_paddr := 4096; p_filesz := 36; p_memsz := 36; p_align := 1 |}.
Definition b_hdr : ehdr :=
  {| e_type := 2; e_machine := 62; e_phoff := b_end + 64 * 10; e_shoff := b_end; e_phnum := 1; e_shnum := 10; e_shstrndx := 4 |}.
Definition b_file : list Z :=
  enc_ehdr true b_hdr (repeat 0 10) 1 4096 0 64 56 64 ++ repeat 144 36 ++ List.concat b_parts
  ++ List.concat (List.map (enc_shdr true) b_shs) ++ enc_phdr true b_phdr.
Definition b_funcs : list (name * Z * Z) := [([102], 4096, 9)].
Definition b_stack (a : Z) : list sinfo :=
  if a =? 4104 then [] else if a <? 4099 then [SInfo [102] 3 10 0]
  else if a =? 4099 then [SInfo [103] 9 10 0; SInfo [102] 3 5 0] else [SInfo [103] 9 12 3; SInfo [102] 3 5 0].
Definition b_samples : samples := {| sa_range := [((64, 68), 100); ((67, 71), 20)]; sa_addr := []; sa_branch := [((71, 64), 5)] |}.

Lemma b_elf : elf_file true b_hdr b_shs [b_phdr] 4 b_file.
Proof.
  split; [repeat split; vm_compute; try discriminate; reflexivity|].
  split; [repeat (apply Forall_cons; [repeat split; vm_compute; try discriminate; reflexivity|]); constructor|].
  split; [repeat (apply Forall_cons; [repeat split; vm_compute; try discriminate; reflexivity|]); constructor|].
  split; [exists (repeat 0 10), 1, 4096, 0, 64, 56, 64; split; [reflexivity|at_off]|].
  split; [right; left; reflexivity|]. split; [vm_compute; reflexivity|]. split; [at_off|]. split; [at_off|].
  split; [|split; reflexivity].
  exists (x_shdr 0 0 0 0 0 0). eexists. split; [reflexivity|]. split; [reflexivity|]. split; [reflexivity|].
  split; [vm_compute; discriminate|]. split; [reflexivity|]. split; [vm_compute; discriminate|]. split; [discriminate|reflexivity].
Qed.
Ltac no_zero := apply Forall_forall; intros ? H; vm_compute in H; repeat destruct H as [<-|H]; try discriminate; destruct H.
Lemma b_name i s : nth_error b_shs i = Some s -> section_named b_file b_shs 4 s (text (nth i b_names ""%string)).
Proof.
  intros H. do 10 (destruct i as [|i]; [injection H as <-; eexists; split; [reflexivity|]; split; [vm_compute; discriminate|]; split; [no_zero|at_off]|]).
  destruct i; discriminate.
Qed.
Lemma b_named : named_sections 4096 b_file b_shs 4.
Proof.
  split; [reflexivity|]. split; [eexists; split; [reflexivity|]; left; reflexivity|].
  intros s I. apply In_nth_error in I. destruct I as (i & I). eexists. apply (b_name i s I).
Qed.
Lemma b_match n i s : section_matches b_file b_shs 4 n i s -> nth_error b_shs i = Some s /\ names_section n (text (nth i b_names ""%string)).
Proof.
  intros (sn & N & (str & E & _ & SI) & M). split; [exact N|]. destruct (b_name i s N) as (str' & E' & _ & SI').
  rewrite E in E'. injection E' as <-. rewrite (string_is_det _ _ _ _ SI' SI). exact M.
Qed.
Lemma names_section_eq n sn : names_section n sn -> nth 1 sn 0 <> 122 -> sn = n.
Proof. intros [->|(x & -> & ->)] H; [reflexivity|]. exfalso. apply H. reflexivity. Qed.
Lemma b_content n i (bs : list Z) : nth_error b_names i = Some n -> (forall j, (j < i)%nat -> text (nth j b_names ""%string) <> text n) ->
  (exists s, nth_error b_shs i = Some s /\ mappable 4096 s /\ ElfSpec.at_offset b_file (sh_offset s) bs /\ zlen bs = sh_size s) ->
  section_content 4096 b_file b_shs 4 n (Some bs).
Proof.
  intros N U (s & S & MP & AT & L). right. exists i, s, bs. split; [reflexivity|]. split.
  - exists (text n). split; [exact S|]. split; [|left; reflexivity]. replace n with (nth i b_names ""%string) by (apply nth_error_nth; exact N). apply b_name. exact S.
  - split; [exact MP|]. split; [|split; assumption]. intros j s' M. apply b_match in M. destruct M as [_ M].
    destruct (Nat.le_gt_cases i j) as [|L']; [assumption|]. exfalso. apply (U j L'). apply names_section_eq in M; [exact M|].
    clear. do 10 (destruct j as [|j]; [vm_compute; discriminate|]). destruct j; vm_compute; discriminate.
Qed.
Lemma b_absent n : (forall j, text (nth j b_names ""%string) <> text n) -> section_content 4096 b_file b_shs 4 n None.
Proof.
  intros U. left. split; [reflexivity|]. intros j s M. apply b_match in M. destruct M as [_ M]. apply (U j). apply names_section_eq in M; [exact M|].
  clear. do 10 (destruct j as [|j]; [vm_compute; discriminate|]). destruct j; vm_compute; discriminate.
Qed.
Ltac here i := apply (b_content _ i); [reflexivity|
  let j := fresh in let L := fresh in intros j L; do 10 (destruct j as [|j]; [first [lia|vm_compute; discriminate]|]); lia|
  eexists; split; [reflexivity|]; split; [left; vm_compute; reflexivity|]; split; [at_off|vm_compute; reflexivity]].
Ltac absent := apply b_absent; let j := fresh in intros j; do 10 (destruct j as [|j]; [vm_compute; discriminate|]); destruct j; vm_compute; discriminate.
Lemma b_debug : debug_info_is 4096 b_file b_shs 4 ex_e.
Proof.
  split; [here 5%nat|]. split; [here 6%nat|]. split; [here 7%nat|]. split; [absent|]. split; [absent|]. split; [here 8%nat|].
  split; [here 9%nat|]. exists None. absent.
Qed.
Lemma b_symbols : symbols_of true 4096 b_file b_shs 2 [([102], x_sym 1 18 4096 9)].
Proof.
  right. eexists [_; _], _, _, _, b_syms. split; [reflexivity|].
  split; [repeat constructor; discriminate|]. split; [reflexivity|]. split; [vm_compute; split; reflexivity|].
  split; [reflexivity|]. split; [left; reflexivity|]. split; [left; reflexivity|]. split.
  - split; [repeat (apply Forall_cons; [repeat split; vm_compute; try discriminate; reflexivity|]); constructor|].
    split; [at_off|]. split; [reflexivity|]. split; [reflexivity|]. split; [reflexivity|vm_compute; discriminate].
  - apply ns_skip; [reflexivity|]. apply ns_name; [discriminate| |apply ns_nil]. split; [repeat constructor; discriminate|at_off].
Qed.

Example C66_nonvacuous :
  let orig := GetOriginalName ElideSelected in
  let segs := executable_segments [b_phdr] in
  elf_file true b_hdr b_shs [b_phdr] 4 b_file /\ named_sections 4096 b_file b_shs 4 /\
  symbols_of true 4096 b_file b_shs 2 [([102], x_sym 1 18 4096 9)] /\ symbols_of true 4096 b_file b_shs 11 [] /\
  names_apart b_file b_shs ([([102], x_sym 1 18 4096 9)] ++ []) /\
  functions_are b_hdr ([([102], x_sym 1 18 4096 9)] ++ []) b_funcs /\ funcs_ok b_funcs /\ laid_out segs /\ Forall aligned segs /\
  debug_info_is 4096 b_file b_shs 4 ex_e /\ load_address b_hdr [b_phdr] = 4096 /\
  written LittleEndian ex_e [xu] [DwLineProps.unit0 4096 4112] xdies /\ reads_units xdies xforest /\
  NoDup (map n_offset (nodes xforest)) /\ good_forest 4096 xforest /\ sequences 4096 [DwLineProps.unit0 4096 4112] seqs0 /\
  (forall f a, In f b_funcs -> In a (func_addrs f) -> inline_stack 4096 xforest seqs0 a (b_stack a)) /\
  debug_info_fits b_funcs orig (fun d => d) b_stack 2 /\ (forall f, In f b_funcs -> orig (f_name f) <> []) /\
  (forall f a i, In f b_funcs -> In a (func_addrs f) -> In i (removelast (b_stack a)) -> si_func i <> []) /\
  samples_ok b_samples /\ fits_file b_samples /\ samples_in_segments segs b_samples /\ (forall m, extras_fit 2 (x_extras m)) /\
  (exists bytes, create_gcov_binary 4096 None (fun _ _ _ _ _ _ => Abort) (fun _ _ => Abort) 5 ElideSelected true (fun _ => 0) 2 x_extras b_file
     (Write b_samples []) = Ok (Some bytes) /\ zlen bytes < 2 ^ 32) /\
  in_profile segs b_funcs orig b_stack (fun _ => 1) true b_samples (threshold_of (fun _ => 0) b_samples) [102] /\
  expected_count segs b_funcs orig (fun d => d) b_stack (fun _ => 1) true b_samples [102] [] (GenerateOffset 7 0) = 100 /\
  expected_count segs b_funcs orig (fun d => d) b_stack (fun _ => 1) true b_samples [102] [(GenerateOffset 2 0, [103])] (GenerateOffset 3 3) = 120 /\
  expected_entry segs b_funcs orig true b_samples (threshold_of (fun _ => 0) b_samples) [102] = 5.
Proof.
  pose proof C63_nonvacuous as (W & R & ND & GF & SQ & _).
  assert (AD : forall f a, In f b_funcs -> In a (func_addrs f) -> 4096 <= a < 4105).
  { intros f a [<-|[]] I. unfold func_addrs in I. apply in_map_iff in I. destruct I as (i & <- & I). apply in_seq in I. cbn [snd] in I. change (Z.to_nat 9) with 9%nat in I. change (f_lo ([102], 4096, 9)) with 4096. lia. }
  assert (NP : forall n, In n [[102]; [103]] -> name_fits 2 n /\ plain n).
  { intros n I. split.
    - destruct I as [<-|[<-|[]]]; (split; [repeat constructor; lia|vm_compute; reflexivity]).
    - intros pre suf J E. apply (f_equal (@length Z)) in E. rewrite app_length in E.
      assert ((length n <= 1)%nat) by (destruct I as [<-|[<-|[]]]; cbn; lia).
      destruct J as [<-|[<-|[<-|[<-|[]]]]]; cbn [length] in E; lia. }
  cbn zeta.
  split; [exact b_elf|]. split; [exact b_named|]. split; [exact b_symbols|].
  split; [left; split; [repeat constructor; discriminate|reflexivity]|].
  split. { intros n s str [[= <- <-]|[]] _ I SI. cbn [st_name x_sym] in *.
    apply string_at_is in SI. do 10 (destruct I as [<-|I]; [first [at_off|exfalso; vm_compute in SI; discriminate SI]|]). destruct I. }
  split. { intros f. split.
    - intros [<-|[]]. exists [102], (x_sym 1 18 4096 9). split; [left; reflexivity|]. split; [|vm_compute; reflexivity].
      right. split; [discriminate|]. split; [left; reflexivity|]. intros (p & E). apply (f_equal (@length Z)) in E. rewrite app_length in E. cbn in E. lia.
    - intros (n & s & [[= <- <-]|[]] & _ & ->). left. vm_compute. reflexivity. }
  split. { split; [repeat constructor; cbn; tauto|]. split; [repeat constructor; cbn; tauto|].
    split; [intros f [<-|[]]; unfold f_lo, f_hi; cbn [fst snd]; lia|]. intros f g [<-|[]] [<-|[]]; unfold f_lo; lia. }
  split; [split; [vm_compute; discriminate|]; split; [vm_compute; discriminate|]; split; [reflexivity|]; split; [vm_compute; discriminate|]; split; [vm_compute; discriminate|]; split; [intros t []|exact Logic.I]|]. split; [repeat constructor|]. split; [exact b_debug|]. split; [reflexivity|].
  split; [exact W|]. split; [exact R|]. split; [exact ND|]. split; [exact GF|]. split; [exact SQ|].
  split. { intros f a If Ia. specialize (AD f a If Ia). clear f If Ia. unfold b_stack.
    destruct (Z.eqb_spec a 4104) as [->|NE]; [apply is_unknown; right; split; [|reflexivity]; intros s [<-|[<-|[]]] (A & B); cbn in A, B; lia|].
    assert (FF : function_is xforest xf [102] 3) by (apply (fi xforest xf xf xf); [apply de_self; discriminate|apply or_self; reflexivity]).
    assert (FC : function_is xforest xc [103] 9). { apply (fi xforest xc xg xg); [|apply or_ref; [discriminate|split; [cbn; tauto|reflexivity]]]. apply (de_origin xforest xc xg xg); [left; reflexivity|reflexivity|discriminate|split; [cbn; tauto|reflexivity]|apply de_self; discriminate]. }
    assert (SC : 4099 <= a < 4104 -> stack_at 4096 a xforest [xc; xf]).
    { intros Q. apply (sa 4096 a xforest (xf, FCons xc FNil FNil)); [right; left; reflexivity|exact xlive|]. cbn [fst snd].
      apply (in_deeper a xf _ FNil [xc]); [exists (4096, 4105); cbn; split; [tauto|lia]|].
      apply in_here; [exists (4099, 4104); cbn; split; [tauto|lia]|]. intros m []. }
    assert (CF : call_frames xforest [xc; xf] [(Some [102], [47; 99; 47; 100], [97], 3, 5, 0)])
      by (apply (cf_call xforest xc xf [] [102] 3 [100] [97]); [reflexivity|exact FF|reflexivity|]; constructor; reflexivity).
    assert (PO : forall l d, row_at (fst (nth 0 seqs0 ([], 0))) a = Some ([100], [97], l, d) -> l <> 0 -> position seqs0 a (Some ([100], [97], l, d))).
    { intros l d E NZ. left. exists (nth 0 seqs0 ([], 0)). split; [left; reflexivity|]. split; [split; cbn; lia|]. rewrite E. cbn [with_source].
      destruct (Z.eqb_spec l 0); [contradiction|reflexivity]. }
    destruct (Z.ltb_spec a 4099) as [L|L]; [|destruct (Z.eqb_spec a 4099) as [->|N9]].
    - apply (is_function 4096 xforest seqs0 a ([100], [97], 10, 0) [xf] [(Some [102], [47; 99; 47; 100], [97], 3, 10, 0)]).
      + apply PO; [|discriminate]. assert (X : a = 4096 \/ a = 4097 \/ a = 4098) by lia. destruct X as [->|[->| ->]]; vm_compute; reflexivity.
      + apply (sa 4096 a xforest (xf, FCons xc FNil FNil)); [right; left; reflexivity|exact xlive|]. cbn [fst snd].
        apply in_here; [exists (4096, 4105); cbn; split; [tauto|lia]|]. intros m [<-|[]] (rr & [<-|[]] & B). cbn in B. lia.
      + apply (fr xforest ([100], [97], 10, 0) xf [] [102] 3); [exact FF|]. constructor. reflexivity.
    - apply (is_function 4096 xforest seqs0 4099 ([100], [97], 10, 0) [xc; xf]
        [(Some [103], [47; 99; 47; 100], [97], 9, 10, 0); (Some [102], [47; 99; 47; 100], [97], 3, 5, 0)]).
      + apply PO; [|discriminate]. vm_compute; reflexivity.
      + apply SC. lia.
      + apply (fr xforest ([100], [97], 10, 0) xc [xf] [103] 9); [exact FC|exact CF].
    - apply (is_function 4096 xforest seqs0 a ([100], [97], 12, 3) [xc; xf]
        [(Some [103], [47; 99; 47; 100], [97], 9, 12, 3); (Some [102], [47; 99; 47; 100], [97], 3, 5, 0)]).
      + apply PO; [|discriminate]. assert (X : a = 4100 \/ a = 4101 \/ a = 4102 \/ a = 4103) by lia. destruct X as [->|[->|[->| ->]]]; vm_compute; reflexivity.
      + apply SC. lia.
      + apply (fr xforest ([100], [97], 12, 3) xc [xf] [103] 9); [exact FC|exact CF]. }
  split. { split.
    - intros f a i _ _. unfold b_stack.
      assert (FR : forall n st ln d, In n [[102]; [103]] -> st <= ln < st + 65536 -> 0 <= d < 65536 -> frame_fits (fun d => d) 2 (SInfo n st ln d)).
      { intros n st ln d I Q D. destruct (NP n I) as [F1 F2]. split; [exact F1|]. split; [exact F2|]. cbn. intros _ _. lia. }
      destruct (a =? 4104); [intros []|]. destruct (a <? 4099); [|destruct (a =? 4099)];
        intros J; repeat destruct J as [<-|J]; try destruct J; apply FR; try lia; cbn; auto.
    - intros f [<-|[]]. change (GetOriginalName ElideSelected (f_name ([102], 4096, 9))) with [102].
      destruct (NP [102]) as [F1 F2]; [left; reflexivity|]. split; [exact F1|]. split; [exact F2|vm_compute; reflexivity]. }
  split. { intros f [<-|[]]. vm_compute. discriminate. }
  split. { intros f a i _ _. unfold b_stack. destruct (a =? 4104); [intros []|]. destruct (a <? 4099); [|destruct (a =? 4099)];
      intros J; cbn in J; repeat destruct J as [<-|J]; try destruct J; discriminate. }
  split. { unfold samples_ok, u64_range. cbn. split; [repeat constructor; cbn; intuition discriminate|].
    split; [constructor|]. split; [repeat constructor; cbn; intuition discriminate|].
    split; [repeat constructor; cbn; lia|]. split; [constructor|]. repeat constructor; cbn; lia. }
  split. { vm_compute. auto. }
  split. { assert (H : forall a, 64 <= a < 100 -> in_segments (executable_segments [b_phdr]) a).
    { intros a Ha. eexists. split; [left; reflexivity|]. cbn. lia. }
    split; [|split].
    - intros e [<-|[<-|[]]]; cbn; split; apply H; lia.
    - intros e [].
    - intros e [<-|[]]; cbn; split; apply H; lia. }
  split. { intros m. split; [constructor|]. split; [unfold summary_fits, is_u64; cbn; repeat split; try lia; constructor|].
    split; [reflexivity|]. apply Forall_forall. intros [c n] I. apply repeat_spec in I. injection I as -> ->. unfold is_u64. lia. }
  split. { eexists. split; [vm_compute; reflexivity|]. vm_compute. reflexivity. }
  split. { split; vm_compute; reflexivity. }
  split; [vm_compute; reflexivity|]. split; [vm_compute; reflexivity|]. vm_compute; reflexivity.
Qed.
