(** C64: a text sample file and a binary become the file GCC reads. *)
From Verif Require Import Base ByteModel ZMap SymbolModel SymbolSpec SymbolProofs SymbolProps ElideModel ElideProofs
  AddrModel AddrProps SampleModel SampleSpec SampleProofs SampleProps ProfileModel ProfileSpec ProfileProofs PartsProps
  SrcOffsetModel AfdoModel AfdoSpec AfdoProps AfdoLayoutProps CreateModel CreateSpec CreateProofs CreateProcProofs CreateFitProofs CreateSame.
From Coq Require Import Permutation.

Lemma sum_of_perm {A} (g : A -> Z) l l' : Permutation l l' -> sum_of g l = sum_of g l'.
Proof. unfold sum_of. induction 1; cbn [fold_right]; lia. Qed.
Lemma sum_of_map {A B} (g : B -> Z) (h : A -> B) l : sum_of g (map h l) = sum_of (fun x => g (h x)) l.
Proof. unfold sum_of. induction l; cbn [map fold_right]; congruence. Qed.
Lemma sum_of_filter {A} (g : A -> Z) P l : sum_of g (filter P l) = sum_of (fun x => if P x then g x else 0) l.
Proof. unfold sum_of. induction l as [|x l IH]; [reflexivity|]. cbn [filter fold_right]. destruct (P x); cbn [fold_right]; rewrite IH; reflexivity. Qed.
Lemma sum_of_ext {A} (g h : A -> Z) l : (forall x, In x l -> g x = h x) -> sum_of g l = sum_of h l.
Proof.
  unfold sum_of. induction l as [|x l IH]; intros H; [reflexivity|]. cbn [fold_right]. rewrite IH by (intros; apply H; right; auto).
  rewrite (H x) by (left; auto). reflexivity.
Qed.
Lemma sum_of_mod {A} (g h : A -> Z) l : (forall x, In x l -> g x mod 2 ^ 64 = h x mod 2 ^ 64) -> sum_of g l mod 2 ^ 64 = sum_of h l mod 2 ^ 64.
Proof.
  unfold sum_of. induction l as [|x l IH]; intros H; [reflexivity|]. cbn [fold_right].
  rewrite Zplus_mod, IH, (H x), <- Zplus_mod; [reflexivity|left; auto|intros; apply H; right; auto].
Qed.
Lemma sum_of_one {A} (g : A -> Z) (P : A -> bool) c l :
  NoDup l -> (forall x y, In x l -> In y l -> P x = true -> P y = true -> x = y) ->
  sum_of (fun x => if P x then c else 0) l = if existsb P l then c else 0.
Proof.
  intros N U. unfold sum_of. induction l as [|x l IH]; [reflexivity|]. cbn [fold_right existsb]. inversion N as [|? ? NI N']; subst.
  rewrite IH; auto; [|intros; apply U; auto; right; auto].
  destruct (P x) eqn:Px; cbn [orb]; [|lia]. destruct (existsb P l) eqn:E; [|lia]. exfalso.
  apply existsb_exists in E. destruct E as (y & Iy & Py). apply NI. rewrite (U x y); auto; [left|right]; auto.
Qed.

Section Whole.
  Variables (base : Z -> Z) (pol : policy) (stack_of : Z -> list sinfo) (dup : sinfo -> Z) (use_lbr : bool)
    (segs : list seg) (funcs : list (name * Z * Z)) (s : samples) (threshold : Z).
  Let orig := GetOriginalName pol.
  Hypothesis SOK : samples_ok s.
  Hypothesis FOK : funcs_ok funcs.
  Hypothesis LO : laid_out segs.
  Hypothesis AL : Forall aligned segs.
  Hypothesis SS : samples_in_segments segs s.
  Notation tab := (st_map (BuildSymbolMap funcs)).
  Notation D := (desc segs s).
  Variable ps : profs.
  Hypothesis ND : NoDup (akeys ps).
  Hypothesis PERM : Permutation ps (map (fun f => (f_name f, D f)) funcs).
  Hypothesis IDEM : forall f, In f funcs -> orig (orig (f_name f)) = orig (f_name f).
  Notation emit := (ProfileModel.ShouldEmit threshold).

  Lemma ps_In n p : In (n, p) ps <-> exists f, In f funcs /\ n = f_name f /\ p = D f.
  Proof.
    split.
    - intros I. apply (Permutation_in _ PERM) in I. apply in_map_iff in I. destruct I as (f & E & I). injection E as <- <-. eauto.
    - intros (f & I & -> & ->). apply (Permutation_in _ (Permutation_sym PERM)). apply in_map_iff. eauto.
  Qed.
  Lemma parts_sum (g : name * pmaps -> Z) n :
    fold_right (fun e acc => g e + acc) 0 (parts_of orig ps n) = sum_of (fun f => g (f_name f, D f)) (parts funcs orig n).
  Proof.
    change (fold_right (fun e acc => g e + acc) 0 (parts_of orig ps n)) with (sum_of g (parts_of orig ps n)).
    unfold parts_of, parts. rewrite !sum_of_filter, (sum_of_perm _ _ _ PERM), sum_of_map. reflexivity.
  Qed.
  Lemma parts_nil n : parts_of orig ps n <> [] <-> parts funcs orig n <> [].
  Proof.
    unfold parts_of, parts. split; intros H E.
    - destruct (filter _ ps) as [|[x p] r] eqn:F; [congruence|].
      assert (I : In (x, p) (filter (fun e => name_eqb (orig (fst e)) n) ps)) by (rewrite F; left; auto).
      apply filter_In in I. destruct I as [I Q]. apply ps_In in I. destruct I as (f & If & -> & ->).
      assert (J : In f (filter (fun f => name_eqb (orig (f_name f)) n) funcs)) by (apply filter_In; auto).
      rewrite E in J. destruct J.
    - destruct (filter _ funcs) as [|f r] eqn:F; [congruence|].
      assert (I : In f (filter (fun f => name_eqb (orig (f_name f)) n) funcs)) by (rewrite F; left; auto).
      apply filter_In in I. destruct I as [I Q].
      assert (J : In (f_name f, D f) (filter (fun e => name_eqb (orig (fst e)) n) ps)) by (apply filter_In; split; auto; apply ps_In; eauto).
      rewrite E in J. destruct J.
  Qed.
  Lemma samples_mod n : all_samples orig ps n mod 2 ^ 64 = sum_of (func_samples segs s) (parts funcs orig n) mod 2 ^ 64.
  Proof.
    unfold all_samples. rewrite (parts_sum (fun e => part_samples (snd e))). cbn [snd].
    apply sum_of_mod. intros f _. apply desc_samples.
  Qed.
  Lemma emit_signed x : emit x = (threshold <? signed64 x).
  Proof. reflexivity. Qed.

  Lemma total_desc f : In f funcs -> part_total base stack_of dup use_lbr (D f) [] = func_total segs stack_of dup use_lbr s f.
  Proof.
    intros If. unfold part_total, func_total. rewrite desc_addresses.
    assert (E : sum_over (fun a => if inside base stack_of a [] then weight stack_of dup use_lbr (D f) a else 0) (func_addrs f)
              = sum_over (scaled segs stack_of dup use_lbr s f) (func_addrs f)).
    { unfold sum_over. induction (func_addrs f) as [|a l IH]; [reflexivity|]. cbn [fold_right]. rewrite IH. f_equal.
      rewrite (desc_weight segs LO AL funcs s SOK SS) by auto. unfold inside, scaled. destruct (stack_of a); reflexivity. }
    rewrite <- E. destruct (use_lbr && match pm_range (D f) with [] => true | _ => false end) eqn:C; [|reflexivity].
    apply andb_prop in C. destruct C as [C1 C2]. destruct (pm_range (D f)) eqn:R; [|discriminate].
    clear E. unfold sum_over. induction (func_addrs f) as [|a l IH]; [reflexivity|]. cbn [fold_right]. rewrite <- IH.
    unfold weight, exec_count. rewrite C1, R. destruct (inside base stack_of a []); auto. destruct (stack_of a); reflexivity.
  Qed.
  Lemma max_desc f q l : In f funcs -> part_max base stack_of dup use_lbr (D f) q l = hottest segs base stack_of dup use_lbr s f q l.
  Proof.
    intros If. unfold part_max, hottest. rewrite desc_addresses. unfold max_over.
    induction (func_addrs f) as [|a r IH]; [reflexivity|]. cbn [fold_right]. rewrite IH.
    rewrite (desc_weight segs LO AL funcs s SOK SS) by auto. reflexivity.
  Qed.

  Lemma entries n : all_calls_to orig tab use_lbr emit ps n mod 2 ^ 64 = expected_entry segs funcs orig use_lbr s threshold n.
  Proof.
    unfold all_calls_to, expected_entry.
    change (fold_right (fun e acc => (if PartsProps.emitted orig emit ps (fst e) then calls_to orig tab use_lbr ps n (snd e) else 0) + acc) 0 ps)
      with (sum_of (fun e => if PartsProps.emitted orig emit ps (fst e) then calls_to orig tab use_lbr ps n (snd e) else 0) ps).
    rewrite (sum_of_perm _ _ _ PERM), sum_of_map. cbn [fst snd].
    set (into := fun a => existsb (fun f => (f_lo f =? a) && name_eqb (orig (f_name f)) n) funcs).
    set (cc := caller_counts segs funcs orig use_lbr s threshold).
    assert (INTO : forall a, match GetSymbolNameByStartAddr tab a with
        | Some callee => existsb (fun x => name_eqb x callee) (akeys ps) && name_eqb (orig callee) n
        | None => false end = into a).
    { intros a. apply eq_true_iff_eq. unfold into. rewrite existsb_exists. split.
      - destruct (GetSymbolNameByStartAddr tab a) as [callee|] eqn:E; [|discriminate]. apply (start_Some funcs FOK) in E.
        destruct E as (f & If & <- & <-). intros H. apply andb_prop in H. exists f. rewrite Z.eqb_refl. split; auto. apply H.
      - intros (f & If & H). apply andb_prop in H. destruct H as [H1 H2].
        assert (E : GetSymbolNameByStartAddr tab a = Some (f_name f)) by (apply (start_Some funcs FOK); exists f; split; auto; split; auto; lia).
        rewrite E, H2, andb_true_r. apply existsb_exists. exists (f_name f). split; [|destruct (name_eqb_spec (f_name f) (f_name f)); congruence].
        apply in_map_iff. exists (f_name f, D f). split; auto. apply ps_In. eauto. }
    transitivity (sum_of (fun f => if cc f then
        sum_of (fun e => if in_func f (address_of segs (fst (fst e))) && into (address_of segs (snd (fst e))) then snd e else 0) (sa_branch s) else 0) funcs mod 2 ^ 64).
    { apply sum_of_mod. intros f If. unfold cc, caller_counts, PartsProps.emitted. rewrite part_count_spec.
      change (u64 (all_samples orig ps (orig (f_name f)))) with (all_samples orig ps (orig (f_name f)) mod 2 ^ 64).
      rewrite samples_mod, emit_signed. rewrite <- desc_idle.
      destruct (threshold <? _); cbn [andb]; [|reflexivity]. unfold calls_to, idle.
      destruct (use_lbr && _); cbn [negb]; [reflexivity|].
      transitivity (wsum (fun b => into (snd b)) (pm_branch (D f)) mod 2 ^ 64).
      { f_equal. destruct (desc_branches segs LO AL funcs s SOK SS f If) as [_ B]. unfold wsum.
        induction (pm_branch (D f)) as [|e r IH]; [reflexivity|]. inversion B as [|? ? [[B1 _] _] B']; subst.
        cbn [fold_right]. rewrite IH by auto. rewrite INTO. unfold from_inside. cbn [desc pm_start pm_end].
        unfold in_func in B1. rewrite B1. reflexivity. }
      cbn [desc pm_branch]. rewrite (wsum_all pair_eqb pair_eqb_spec). f_equal.
      unfold sel2, wsum. change (fold_right (fun e acc => (if into (snd (fst e)) then snd e else 0) + acc) 0)
        with (sum_of (fun e : (Z * Z) * Z => if into (snd (fst e)) then snd e else 0)).
      rewrite sum_of_filter, sum_of_map. apply sum_of_ext. intros [[a b] c] _. cbn [fst snd].
      destruct (in_func f (address_of segs a)), (into (address_of segs b)); reflexivity. }
    f_equal.
    assert (NF : NoDup funcs).
    { destruct FOK as (N & _). eapply NoDup_map_inv. exact N. }
    transitivity (sum_of (fun e => sum_of (fun f => if in_func f (address_of segs (fst (fst e))) && cc f
        then (if into (address_of segs (snd (fst e))) then snd e else 0) else 0) funcs) (sa_branch s)).
    { generalize (sa_branch s) as B. clearbody cc into. clear. intros B. unfold sum_of. induction B as [|e B IH]; cbn [fold_right].
      - induction funcs as [|f r IH]; [reflexivity|]. cbn [fold_right]. rewrite IH. destruct (cc f); reflexivity.
      - rewrite <- IH. clear IH. induction funcs as [|f r IH]; [reflexivity|]. cbn [fold_right]. rewrite IH.
        destruct (cc f); [|rewrite andb_false_r; lia]. rewrite andb_true_r.
        destruct (in_func f _), (into _); cbn [andb]; lia. }
    apply sum_of_ext. intros e _.
    rewrite (sum_of_one (fun _ => 0) (fun f => in_func f (address_of segs (fst (fst e))) && cc f)); auto.
    - unfold into. destruct (existsb _ funcs), (existsb _ funcs); reflexivity.
    - intros x y Ix Iy Px Py. apply andb_prop in Px. apply andb_prop in Py. eapply (in_func_unique funcs FOK); [auto|auto|apply Px|apply Py].
  Qed.

  Lemma compute_whole :
    exists m', ComputeProfile base orig tab stack_of dup use_lbr emit (fun _ => []) ps (SMap [] []) = Ok m' /\ smap_ok m' /\
      forall n, (sm_find m' n <> None <-> parts funcs orig n <> [] /\ sampled segs funcs orig s threshold n) /\
        forall s', sm_find m' n = Some s' ->
          s_total s' = sum_of (func_total segs stack_of dup use_lbr s) (parts funcs orig n) mod 2 ^ 64 /\
          (forall q l, count_at s' q l = expected_count segs funcs orig base stack_of dup use_lbr s n q l) /\
          head_at s' [] = expected_entry segs funcs orig use_lbr s threshold n.
  Proof.
    assert (NS : forall x, In x (akeys ps) -> orig (orig x) = orig x).
    { intros x I. apply in_map_iff in I. destruct I as ([x' p] & E & I). cbn in E. subst x'. apply ps_In in I.
      destruct I as (f & If & -> & _). auto. }
    assert (OK : forall n p, In (n, p) ps -> pmaps_ok p).
    { intros n p I. apply ps_In in I. destruct I as (f & If & _ & ->). apply (desc_ok segs LO AL funcs FOK); auto. }
    destruct (compute_counts base orig tab stack_of dup use_lbr emit ps NS ND OK) as (m' & E & K & X).
    destruct (C48_parts_emitted_together base tab stack_of dup use_lbr pol threshold ps NS ND OK) as (m2 & E2 & Y).
    assert (m2 = m') by (unfold orig in E; congruence). subst m2.
    exists m'. split; [exact E|]. split; [exact K|]. intros n. destruct (Y n) as [Y1 Y2]. split.
    - rewrite Y1. fold orig. rewrite parts_nil, samples_mod, emit_signed, Z.ltb_lt. reflexivity.
    - intros s' F. destruct (X n s' F) as [X1 X2]. split; [|split].
      + specialize (Y2 s' F []). fold orig in Y2. rewrite (parts_sum (fun e => part_total base stack_of dup use_lbr (snd e) [])) in Y2.
        cbn [snd] in Y2. destruct s'. cbn [s_total] in *. change (total_at (Sym head total ts pos calls) []) with total in Y2. rewrite Y2. f_equal.
        apply sum_of_ext. intros f I. apply filter_In in I. apply total_desc. apply I.
      + intros q l. rewrite X1. rewrite (parts_sum (fun e => part_max base stack_of dup use_lbr (snd e) q l)). unfold expected_count. f_equal.
        apply sum_of_ext. intros f I. apply filter_In in I. apply max_desc. apply I.
      + rewrite X2. apply entries.
  Qed.

  Lemma compute_fits version m' : debug_info_fits funcs orig base stack_of version ->
    ComputeProfile base orig tab stack_of dup use_lbr emit (fun _ => []) ps (SMap [] []) = Ok m' -> smap_ok m' ->
    forall n s', sm_find m' n = Some s' -> fits version base orig s'.
  Proof.
    intros [D1 D2] E K n s' F.
    apply (compute_shape (loc_fits base) (fun n => name_fits version n /\ plain n) (fun n => name_fits version n /\ plain n /\ orig n = n)) in E.
    - unfold sm_find in F. destruct (aget _ _ _); [|discriminate]. apply nth_error_In in F.
      destruct K as (_ & K & _). unfold heap_shape in E. rewrite Forall_forall in K, E. apply shape_fits; auto.
    - intros a x H. apply (start_Some funcs FOK) in H. destruct H as (f & If & _ & <-). destruct (D2 f If) as (? & ? & ?). auto.
    - intros x p I. apply ps_In in I. destruct I as (f & _ & _ & ->). unfold is_u64. cbn. lia.
    - intros x p a I R. apply ps_In in I. destruct I as (f & If & _ & ->). cbn [desc pm_start pm_end] in R.
      assert (Ia : In a (func_addrs f)).
      { unfold func_addrs. apply in_map_iff. exists (Z.to_nat (a - f_lo f)). unfold f_hi, f_lo in *. rewrite in_seq. lia. }
      split; apply Forall_forall; intros i Ii.
      2:{ assert (Ii' : In i (stack_of a)).
          { clear - Ii. revert Ii. generalize (stack_of a). intros st. destruct st as [|x st]; [intros []|].
            intros Ii. rewrite (@app_removelast_last _ (x :: st) x) by discriminate. apply in_or_app. left. exact Ii. }
          destruct (D1 f a i If Ia Ii') as (F1 & F2 & _). auto. }
      destruct (D1 f a i If Ia Ii) as (F1 & F2 & F3). intros IV. unfold si_invalid in IV.
      apply orb_false_iff in IV. destruct IV as [I1 I2]. destruct F3 as (F4 & F5 & F6); try lia.
      exists (si_line i - si_start i), (base (si_disc i)). split; [lia|]. split; [auto|]. split; [auto|].
      unfold si_offset. f_equal. unfold u32. change w32 with (2 ^ 32). apply Z.mod_small. lia.
  Qed.
End Whole.

Lemma map_entries_In m n s' : NoDup (akeys (sm_names m)) -> In (n, s') (map_entries m) <-> sm_find m n = Some s'.
Proof.
  intros N. unfold map_entries. rewrite in_flat_map. split.
  - intros ([x i] & I & J). destruct (sm_find m x) as [sx|] eqn:F; [|destruct J]. destruct J as [E|[]]. injection E as <- <-. exact F.
  - intros F. pose proof F as F'. unfold sm_find in F'. destruct (aget name_eqb n (sm_names m)) as [i|] eqn:A; [|discriminate].
    apply (aget_In name_eqb name_eqb_spec) in A. exists (n, i). split; auto. rewrite F. left. auto.
Qed.
Lemma map_entries_NoDup m : NoDup (akeys (sm_names m)) -> NoDup (map fst (map_entries m)).
Proof.
  unfold map_entries, akeys. generalize (sm_find m). intros fd. induction (sm_names m) as [|[n i] l IH]; intros N; [constructor|].
  cbn [map fst] in N. inversion N as [|? ? NI N']; subst. cbn [flat_map]. rewrite map_app.
  destruct (fd n); cbn [map app fst]; auto. constructor; auto. intros I. apply NI.
  apply in_map_iff in I. destruct I as ([x sx] & E & I). cbn in E. subst x. apply in_flat_map in I.
  destruct I as ([y j] & J & Q). destruct (fd y); [|destruct Q]. destruct Q as [Q|[]]. injection Q as <- <-.
  apply in_map_iff. exists (y, j). auto.
Qed.

(** The run up to the writing of the file. *)
Lemma create_run base pol stack_of dup use_lbr frac version extras_of syms funcs headers segs s aux :
  let orig := GetOriginalName pol in
  let threshold := threshold_of frac s in
  samples_ok s -> fits_file s -> (forall f, In f syms <-> In f funcs) -> funcs_ok funcs ->
  laid_out segs -> Forall aligned segs -> samples_in_segments segs s ->
  (forall p, In p headers -> 0 <= ph_offset p < 2 ^ 64) ->
  map (fun p => (ph_offset p, ph_vaddr p)) (filter (fun p => ph_load p && ph_exec p) headers)
    = map (fun g => (sg_off g, sg_vaddr g)) segs ->
  (forall f, In f funcs -> orig (orig (f_name f)) = orig (f_name f)) ->
  exists ps m, Permutation ps (map (fun f => (f_name f, desc segs s f)) funcs) /\
    ComputeProfile base orig (st_map (BuildSymbolMap funcs)) stack_of dup use_lbr (ProfileModel.ShouldEmit threshold)
      (fun _ => []) ps (SMap [] []) = Ok m /\ smap_ok m /\
    (forall n, (sm_find m n <> None <-> parts funcs orig n <> [] /\ sampled segs funcs orig s threshold n) /\
        forall s', sm_find m n = Some s' ->
          s_total s' = sum_of (func_total segs stack_of dup use_lbr s) (parts funcs orig n) mod 2 ^ 64 /\
          (forall q l, count_at s' q l = expected_count segs funcs orig base stack_of dup use_lbr s n q l) /\
          head_at s' [] = expected_entry segs funcs orig use_lbr s threshold n) /\
    create_gcov base pol stack_of dup use_lbr frac version extras_of syms headers false (Write s aux) =
      (let! b := WriteToFile version threshold (extras_of m) (map_entries m) in Ok (Some b)).
Proof.
  intros orig threshold SOK FF SAME FOK LO AL SS HO HS IDEM.
  rewrite (create_same syms funcs FOK SAME).
  unfold create_gcov. rewrite C18_round_trip by auto. cbn [obind negb].
  rewrite C16_segments_of_program_headers, HS by auto. unfold compute.
  assert (TH : CalculateThresholdFromTotalCount frac (TotalCount s) = threshold).
  { unfold CalculateThresholdFromTotalCount, threshold, threshold_of. rewrite C19_total_count.
    change (s64 (weighted_total s mod 2 ^ 64)) with (signed64 (weighted_total s mod 2 ^ 64)).
    destruct (Z.ltb_spec (frac (signed64 (weighted_total s mod 2 ^ 64))) 10); lia. }
  rewrite TH, (alias_nil funcs FOK).
  destruct (aggregate_ok funcs FOK segs LO AL s SS) as (ps & EA & ND & PERM).
  change (map (fun g => (sg_off g, sg_vaddr g)) segs) with (map seg_pair segs). rewrite EA. cbn [obind filter map].
  destruct (compute_whole base pol stack_of dup use_lbr segs funcs s threshold SOK FOK LO AL SS ps ND PERM IDEM) as (m & EM & K & X).
  rewrite EM. cbn [obind]. exists ps, m. split; [exact PERM|]. split; [exact EM|]. split; [exact K|]. split; [exact X|reflexivity].
Qed.

Theorem C64_gcov_file :
  forall base pol stack_of dup use_lbr frac version extras_of syms funcs headers segs s aux bytes force alloc,
  let orig := GetOriginalName pol in
  let threshold := threshold_of frac s in
  samples_ok s -> fits_file s -> (forall f, In f syms <-> In f funcs) -> funcs_ok funcs -> laid_out segs -> Forall aligned segs -> samples_in_segments segs s ->
  (forall p, In p headers -> 0 <= ph_offset p < 2 ^ 64) ->
  map (fun p => (ph_offset p, ph_vaddr p)) (filter (fun p => ph_load p && ph_exec p) headers)
    = map (fun g => (sg_off g, sg_vaddr g)) segs ->
  debug_info_fits funcs orig base stack_of version -> (forall m, extras_fit version (extras_of m)) ->
  0 <= version < 2 ^ 32 -> 0 <= alloc ->
  create_gcov base pol stack_of dup use_lbr frac version extras_of syms headers false (Write s aux) = Ok (Some bytes) ->
  zlen bytes < 2 ^ 32 ->
  exists r, ReadFromFile base orig force alloc bytes empty_map = Ok r /\
    forall n,
      (sm_find (af_map r) n <> None <-> in_profile segs funcs orig stack_of dup use_lbr s threshold n) /\
      forall s', sm_find (af_map r) n = Some s' ->
        (forall q l, count_at s' q l = expected_count segs funcs orig base stack_of dup use_lbr s n q l) /\
        head_at s' [] = expected_entry segs funcs orig use_lbr s threshold n.
Proof.
  intros base pol stack_of dup use_lbr frac version extras_of syms funcs headers segs s aux bytes force alloc orig threshold
    SOK FF SAME FOK LO AL SS HO HS DF XF V A C L.
  assert (IDEM : forall f, In f funcs -> GetOriginalName pol (GetOriginalName pol (f_name f)) = GetOriginalName pol (f_name f)).
  { intros f If. apply DF. auto. }
  destruct (create_run base pol stack_of dup use_lbr frac version extras_of syms funcs headers segs s aux SOK FF SAME FOK LO AL SS HO HS IDEM)
    as (ps & m & PERM & EM & K & X & R). rewrite R in C. fold threshold in EM, X, C.
  destruct (WriteToFile version threshold (extras_of m) (map_entries m)) as [b| |] eqn:W; try discriminate.
  cbn [obind] in C. injection C as ->.
  assert (NK : NoDup (akeys (sm_names m))) by apply K.
  assert (FT : forall n s', sm_find m n = Some s' -> fits version base orig s').
  { intros n s' F. eapply (compute_fits base pol stack_of dup use_lbr segs funcs s threshold FOK ps PERM IDEM version m DF EM K). exact F. }
  fold orig in X.
  destruct (C04_afdo_round_trip_empty base orig version force threshold (extras_of m) (map_entries m) bytes alloc V A W L)
    as (r & ER & R1 & R2); auto.
  { apply map_entries_NoDup. auto. }
  { intros n s' I _. apply map_entries_In in I; auto.
    destruct (proj1 (proj1 (X n))) as [PN _]; [congruence|].
    destruct (parts funcs orig n) as [|f rest] eqn:EP; [congruence|].
    assert (If : In f (parts funcs orig n)) by (rewrite EP; left; auto). unfold parts in If. apply filter_In in If. destruct If as [If On].
    destruct (name_eqb_spec (orig (f_name f)) n); [|discriminate]. subst n.
    destruct DF as [_ D2]. destruct (D2 f If) as (? & ? & _). split; [auto|]. split; [auto|]. eapply FT; eauto. }
  exists r. split; [exact ER|]. intros n. destruct (X n) as [X1 X2].
  assert (P : sm_find (af_map r) n <> None -> exists s1, sm_find m n = Some s1 /\ AfdoSpec.emitted threshold s1).
  { intros F. destruct (sm_find m n) as [s1|] eqn:Fm.
    - destruct (Z.ltb_spec threshold (signed64 (s_total s1))) as [T|T]; [exists s1; split; auto|].
      exfalso. apply F. apply R2. intros s2 I. apply map_entries_In in I; auto. assert (s2 = s1) by congruence. subst s2. unfold AfdoSpec.emitted. lia.
    - exfalso. apply F. apply R2. intros s2 I. apply map_entries_In in I; auto. congruence. }
  split.
  - split.
    + intros F. destruct (P F) as (s1 & F1 & T). destruct (proj1 X1) as [_ Sn]; [congruence|]. split; [exact Sn|].
      destruct (X2 s1 F1) as (X3 & _). unfold AfdoSpec.emitted in T. rewrite X3 in T. exact T.
    + intros [Sn T]. assert (PN : parts funcs orig n <> []).
      { intros E. unfold sampled in Sn. rewrite E in Sn. cbn in Sn. unfold threshold, threshold_of in Sn. lia. }
      destruct (sm_find m n) as [s1|] eqn:F1; [|exfalso; apply (proj2 X1); auto].
      destruct (X2 s1 eq_refl) as (X3 & _).
      destruct (R1 n s1) as (s' & F' & _); [apply map_entries_In; auto|unfold AfdoSpec.emitted; rewrite X3; exact T|]. congruence.
  - intros s' F'. destruct P as (s1 & F1 & T); [congruence|]. destruct (X2 s1 F1) as (_ & X4 & X5).
    destruct (R1 n s1) as (s2 & F2 & SM); [apply map_entries_In; auto|exact T|]. assert (s2 = s') by congruence. subst s2. split.
    + intros q l. destruct (SM q l []) as (_ & _ & _ & _ & -> & _). apply X4.
    + destruct (SM [] 0 []) as (_ & _ & -> & _). rewrite <- X5. destruct s1; reflexivity.
Qed.
Print Assumptions C64_gcov_file.

Lemma shape_named s' : shape (fun _ => True) (fun n => n <> []) (fun _ => True) s' -> callees_named s'.
Proof.
  revert s'. fix IH 1. intros [h t ts pos calls] S. inversion S as [? ? ? ? ? _ _ H]; subst. clear S. cbn [callees_named].
  induction calls as [|[[l n] c] calls IHc]; [exact Logic.I|].
  destruct (H l n c (or_introl eq_refl)) as (_ & Hn & Hc). split; [exact Hn|]. split; [exact (IH c Hc)|].
  apply IHc. intros l' n' c' I'. apply (H l' n' c'). right. exact I'.
Qed.

(** The tool does write a file, if the functions, and those inlined into them,
    have names. *)
Theorem C64_succeeds :
  forall base pol stack_of dup use_lbr frac version extras_of syms funcs headers segs s aux,
  let orig := GetOriginalName pol in
  samples_ok s -> fits_file s -> (forall f, In f syms <-> In f funcs) -> funcs_ok funcs ->
  laid_out segs -> Forall aligned segs -> samples_in_segments segs s ->
  (forall p, In p headers -> 0 <= ph_offset p < 2 ^ 64) ->
  map (fun p => (ph_offset p, ph_vaddr p)) (filter (fun p => ph_load p && ph_exec p) headers)
    = map (fun g => (sg_off g, sg_vaddr g)) segs ->
  (forall f, In f funcs -> orig (f_name f) <> [] /\ orig (orig (f_name f)) = orig (f_name f)) ->
  (forall f a i, In f funcs -> In a (func_addrs f) -> In i (removelast (stack_of a)) -> si_func i <> []) ->
  exists bytes, create_gcov base pol stack_of dup use_lbr frac version extras_of syms headers false (Write s aux) = Ok (Some bytes).
Proof.
  intros base pol stack_of dup use_lbr frac version extras_of syms funcs headers segs s aux orig
    SOK FF SAME FOK LO AL SS HO HS NM NI.
  destruct (create_run base pol stack_of dup use_lbr frac version extras_of syms funcs headers segs s aux SOK FF SAME FOK LO AL SS HO HS
    (fun f I => proj2 (NM f I))) as (ps & m & PERM & EM & K & X & R). rewrite R.
  destruct (proj2 (C06_writer_succeeds version (threshold_of frac s) (extras_of m) (map_entries m))) as [b W].
  2:{ rewrite W. exists b. reflexivity. }
  assert (NK : NoDup (akeys (sm_names m))) by apply K.
  intros n s' I _. apply map_entries_In in I; [|exact NK]. split.
  - intros ->. destruct (proj1 (proj1 (X []))) as [PN _]; [congruence|].
    destruct (parts funcs (GetOriginalName pol) []) as [|f rest] eqn:EP; [congruence|].
    assert (If : In f (parts funcs (GetOriginalName pol) [])) by (rewrite EP; left; auto). unfold parts in If. apply filter_In in If.
    destruct If as [If On]. destruct (NM f If) as [NE _]. fold orig in On.
    destruct (name_eqb_spec (orig (f_name f)) []); [contradiction|discriminate].
  - apply shape_named.
    apply (compute_shape (fun _ => True) (fun n => n <> []) (fun _ => True)) in EM; auto.
    + unfold sm_find in I. destruct (aget _ _ _); [|discriminate]. apply nth_error_In in I.
      unfold heap_shape in EM. rewrite Forall_forall in EM. apply EM. exact I.
    + intros x p J. apply (ps_In segs funcs s ps PERM) in J. destruct J as (f & _ & _ & ->). unfold is_u64. cbn. lia.
    + intros x p a J Q. apply (ps_In segs funcs s ps PERM) in J. destruct J as (f & If & _ & ->). cbn [desc pm_start pm_end] in Q.
      assert (Ia : In a (func_addrs f)).
      { unfold func_addrs. apply in_map_iff. exists (Z.to_nat (a - f_lo f)). unfold f_hi, f_lo in *. rewrite in_seq. lia. }
      split; apply Forall_forall; intros i Ii; [intros _; exact Logic.I|]. eapply NI; eauto.
Qed.
Print Assumptions C64_succeeds.

(** A binary with f, its cold part f.cold and g; h is inlined into f.cold. *)
Definition x_f : name := [102].
Definition x_cold : name := [102; 46; 99; 111; 108; 100].
Definition x_g : name := [103].
Definition x_h : name := [104].
Definition x_funcs : list (name * Z * Z) := [(x_f, 4096, 4); (x_cold, 4112, 4); (x_g, 4128, 4)].
Definition x_segs : list seg := [{| sg_off := 0; sg_vaddr := 4096; sg_size := 64 |}].
Definition x_headers : list phdr :=
  [{| ph_load := true; ph_exec := false; ph_offset := 0; ph_vaddr := 0 |};
   {| ph_load := true; ph_exec := true; ph_offset := 0; ph_vaddr := 4096 |}].
Definition x_samples : samples :=
  {| sa_range := [((0, 3), 100); ((16, 18), 50); ((32, 33), 3)]; sa_addr := []; sa_branch := [((18, 0), 7); ((33, 0), 2)] |}.
Definition x_stack (a : Z) : list sinfo :=
  if a =? 4113 then [SInfo x_h 20 21 0; SInfo x_f 10 14 0]
  else if a <? 4112 then [SInfo x_f 10 12 0]
  else if a <? 4128 then [SInfo x_f 10 13 0] else [SInfo x_g 30 31 0].
Definition x_extras (m : smap) : extras :=
  {| ex_files := []; ex_file_idx := fun _ => 0;
     ex_summary := {| su_total := 0; su_max := 0; su_max_fn := 0; su_num := 0; su_fns := 0; su_detail := [] |};
     ex_ws := repeat (0, 0) 128 |}.

Example C64_nonvacuous :
  let orig := GetOriginalName ElideSelected in
  samples_ok x_samples /\ fits_file x_samples /\ (forall f, In f (x_funcs ++ x_funcs) <-> In f x_funcs) /\ funcs_ok x_funcs /\ laid_out x_segs /\ Forall aligned x_segs /\
  samples_in_segments x_segs x_samples /\
  (forall p, In p x_headers -> 0 <= ph_offset p < 2 ^ 64) /\
  map (fun p => (ph_offset p, ph_vaddr p)) (filter (fun p => ph_load p && ph_exec p) x_headers)
    = map (fun g => (sg_off g, sg_vaddr g)) x_segs /\
  debug_info_fits x_funcs orig (fun d => d) x_stack 2 /\ (forall m, extras_fit 2 (x_extras m)) /\
  (forall f a i, In f x_funcs -> In a (func_addrs f) -> In i (removelast (x_stack a)) -> si_func i <> []) /\
  (forall f, In f x_funcs -> orig (f_name f) <> []) /\
  (exists bytes, create_gcov (fun d => d) ElideSelected x_stack (fun _ => 1) true (fun _ => 0) 2 x_extras (x_funcs ++ x_funcs) x_headers false
     (Write x_samples []) = Ok (Some bytes) /\ zlen bytes < 2 ^ 32) /\
  in_profile x_segs x_funcs orig x_stack (fun _ => 1) true x_samples (threshold_of (fun _ => 0) x_samples) x_f /\
  ~ in_profile x_segs x_funcs orig x_stack (fun _ => 1) true x_samples (threshold_of (fun _ => 0) x_samples) x_g /\
  expected_count x_segs x_funcs orig (fun d => d) x_stack (fun _ => 1) true x_samples x_f [] (GenerateOffset 2 0) = 100 /\
  expected_count x_segs x_funcs orig (fun d => d) x_stack (fun _ => 1) true x_samples x_f [(GenerateOffset 4 0, x_h)] (GenerateOffset 1 0) = 50 /\
  expected_entry x_segs x_funcs orig true x_samples (threshold_of (fun _ => 0) x_samples) x_f = 7.
Proof.
  assert (NP : forall n, In n [x_f; x_g; x_h] -> name_fits 2 n /\ plain n).
  { intros n I. split.
    - destruct I as [<-|[<-|[<-|[]]]]; (split; [repeat constructor; lia|vm_compute; reflexivity]).
    - intros pre suf J E. apply (f_equal (@length Z)) in E. rewrite app_length in E.
      assert ((length n <= 1)%nat) by (destruct I as [<-|[<-|[<-|[]]]]; cbn; lia).
      destruct J as [<-|[<-|[<-|[<-|[]]]]]; cbn [length] in E; lia. }
  cbn zeta.
  split. { unfold samples_ok, u64_range. cbn. split; [repeat constructor; cbn; intuition discriminate|].
    split; [constructor|]. split; [repeat constructor; cbn; intuition discriminate|].
    split; [repeat constructor; cbn; lia|]. split; [constructor|]. repeat constructor; cbn; lia. }
  split. { vm_compute. auto. }
  split. { intros f. rewrite in_app_iff. clear. tauto. }
  split. { split; [repeat constructor; cbn; unfold x_f, x_cold, x_g; intuition discriminate|].
    split; [repeat constructor; cbn; lia|].
    split; [intros f [<-|[<-|[<-|[]]]]; unfold f_lo, f_hi; cbn; lia|].
    intros f g [<-|[<-|[<-|[]]]] [<-|[<-|[<-|[]]]]; unfold f_lo, f_hi; cbn; lia. }
  split. { cbn. intuition lia. }
  split. { repeat constructor. }
  split. { assert (H : forall a, 0 <= a < 64 -> in_segments x_segs a).
    { intros a Ha. eexists. split; [left; reflexivity|]. cbn. lia. }
    split; [|split].
    - intros e [<-|[<-|[<-|[]]]]; cbn; split; apply H; lia.
    - intros e [].
    - intros e [<-|[<-|[]]]; cbn; split; apply H; lia. }
  split. { intros p [<-|[<-|[]]]; cbn; lia. }
  split; [reflexivity|].
  split. { split.
    - intros f a i _ _. unfold x_stack.
      assert (FR : forall n st ln, In n [x_f; x_g; x_h] -> st <= ln < st + 65536 -> frame_fits (fun d => d) 2 (SInfo n st ln 0)).
      { intros n st ln I R. destruct (NP n I) as [F1 F2]. split; [exact F1|]. split; [exact F2|]. cbn. intros _ _. lia. }
      destruct (a =? 4113); [|destruct (a <? 4112); [|destruct (a <? 4128)]];
        intros J; repeat destruct J as [<-|J]; try destruct J; apply FR; try lia; cbn; auto.
    - intros f [<-|[<-|[<-|[]]]];
        (split; [|split]); try (vm_compute; reflexivity);
        match goal with |- context [GetOriginalName ElideSelected ?n] => let v := eval vm_compute in (GetOriginalName ElideSelected n) in
          change (GetOriginalName ElideSelected n) with v end; apply NP; cbn; auto. }
  split. { intros m. split; [constructor|]. split; [unfold summary_fits, is_u64; cbn; repeat split; try lia; constructor|].
    split; [reflexivity|]. apply Forall_forall. intros [c n] I. apply repeat_spec in I. injection I as -> ->. unfold is_u64. lia. }
  split. { intros f a i _ _. unfold x_stack. destruct (a =? 4113); [|destruct (a <? 4112); [|destruct (a <? 4128)]];
      intros J; cbn in J; repeat destruct J as [<-|J]; try destruct J; discriminate. }
  split. { intros f [<-|[<-|[<-|[]]]]; vm_compute; discriminate. }
  split. { eexists. split; [vm_compute; reflexivity|]. vm_compute. reflexivity. }
  split. { split; vm_compute; reflexivity. }
  split. { intros [H _]. vm_compute in H. discriminate. }
  split; [vm_compute; reflexivity|]. split; [vm_compute; reflexivity|]. vm_compute; reflexivity.
Qed.
