(** C70: a Propeller run over perf profiles. *)
From Coq Require Import Permutation String.
From Verif Require Import Base SymbolModel SymbolProofs MMapModel MMapSpec MMapProps BinaryIdModel GenModel GenSpec GenProofs.
From Verif Require Import MapperModel MapperSpec MapperProps CfgFreqModel CfgBuildModel CfgBuildSpec InferModel InferSpec InferProps.
From Verif Require Import LayoutModel WriterModel WriterSpec PropEndModel PropEndSpec PropEndProps.


(** * Which profiles are used *)
(** A profile is used exactly if it can be parsed, the options and the build id
    give names to look for, and its maps under these names do not conflict and
    are not missing (C39). *)
Theorem C70_used W o bid d :
  world_good W -> (forall n h x, In (n, Some h) (pf_build_ids d) -> In x h -> 0 <= x < 256) ->
  (forall ns n n', looked_for o bid d ns -> In n ns -> In n' ns -> w_absolute W n = w_absolute W n') ->
  (forall m, BuildPerfDataReader W bid (Some d) (ResolveMmapName o) = inl m <-> used_with W o bid d m) /\
  exists e, BuildPerfDataReader W bid None (ResolveMmapName o) = inr e.
Proof. intros WG ID AL. split; [intros m; apply reader_ok; assumption|eexists; reflexivity]. Qed.
Print Assumptions C70_used.

Lemma usable_det W o bid f d m d' m' : files_good W o bid [f] -> usable W o bid f d m -> usable W o bid f d' m' -> d = d' /\ m = m'.
Proof.
  intros [WG ID AL _] [E U] [E' U']. assert (d' = d) by congruence. subst d'. split; [reflexivity|].
  assert (R : forall x, BuildPerfDataReader W bid (Some d) (ResolveMmapName o) = inl x <-> used_with W o bid d x).
  { intros x. apply reader_ok; [exact WG| |]; [intros n h y Hn; apply (ID f d n h y (or_introl eq_refl) E Hn)|intros ns n n' L; apply (AL f d ns n n' (or_introl eq_refl) E L)]. }
  apply R in U. apply R in U'. congruence.
Qed.
Lemma good_sub W o bid files f : files_good W o bid files -> In f files -> files_good W o bid [f].
Proof. intros [WG ID AL SG] Hf. constructor; [exact WG| | |]; intros g d; [intros n h x|intros ns n n'|]; intros [<-|[]]; [apply ID|apply AL|apply SG]; exact Hf. Qed.
Lemma among_det W o bid files : files_good W o bid files -> forall us us', usable_among W o bid files us -> usable_among W o bid files us' -> us = us'.
Proof.
  intros FG us us' U. revert us'. induction U as [|f fs d m us U UA IH|f fs us NU UA IH]; intros us' U'; inversion U' as [|? ? d' m' ? V VA|? ? ? NV VA]; subst; try reflexivity.
  - destruct (usable_det W o bid f d m d' m' (good_sub _ _ _ _ _ FG (or_introl eq_refl)) U V) as [<- <-]. f_equal. apply IH; [|exact VA].
    destruct FG as [WG ID AL SG]. constructor; [exact WG| | |]; intros g d0; [intros n h x|intros ns n n'|]; intros Hg; [apply ID|apply AL|apply SG]; right; exact Hg.
  - destruct (NV d m U).
  - destruct (NU _ _ V).
  - apply IH; [|exact VA]. destruct FG as [WG ID AL SG]. constructor; [exact WG| | |]; intros g d0; [intros n h x|intros ns n n'|]; intros Hg; [apply ID|apply AL|apply SG]; right; exact Hg.
Qed.
Lemma among_none W o bid files us : usable_among W o bid files us -> us = [] <-> forall f d m, In f files -> ~ usable W o bid f d m.
Proof.
  induction 1 as [|f fs d m us U UA IH|f fs us NU UA IH].
  - split; [intros _ f d m []|reflexivity].
  - split; [discriminate|]. intros H. destruct (H f d m (or_introl eq_refl) U).
  - rewrite IH. split; [intros H g d m [<-|Hg]; [apply NU|apply H, Hg]|intros H g d m Hg; apply H; right; exact Hg].
Qed.
Lemma among_In W o bid files us u : usable_among W o bid files us -> In u us -> exists f, In f files /\ usable W o bid f (fst u) (snd u).
Proof.
  induction 1 as [|f fs d m us U UA IH|f fs us NU UA IH]; intros H; [destruct H| |].
  - destruct H as [<-|H]; [exists f; split; [left; reflexivity|exact U]|]. destruct (IH H) as [g [Hg Hu]]. exists g. split; [right; exact Hg|exact Hu].
  - destruct (IH H) as [g [Hg Hu]]. exists g. split; [right; exact Hg|exact Hu].
Qed.
Lemma zlen_zero {A} (l : list A) : (zlen l =? 0) = match l with [] => true | _ => false end.
Proof. destruct l; [reflexivity|]. unfold zlen. cbn [length]. destruct (Z.eqb_spec (Z.of_nat (S (length l))) 0); [lia|reflexivity]. Qed.

(** * LBR profiles *)
Section Data.
  Context (W : world) (o : options) (bid : name) (files : list name).
  Hypothesis FG : files_good W o bid files.
  Lemma us_words us : usable_among W o bid files us -> (forall u, In u us -> samples_words (pf_samples (fst u))) /\ forall u, In u us -> spe_words (pf_spe (fst u)).
  Proof.
    intros UA. split; intros u Hu; destruct (among_In _ _ _ _ _ _ UA Hu) as [f [Hf [E _]]]; destruct (fg_samples _ _ _ _ FG f (fst u) Hf E) as [S1 S2]; [exact S1|exact S2].
  Qed.
  Lemma lbr_data bn :
    ((exists f, In f files /\ ~ readable W f) /\ AggregateLbrData W o bid bn files = inr ERead) \/
    ((forall f, In f files -> readable W f) /\ exists us, usable_among W o bid files us /\
      match us with
      | [] => AggregateLbrData W o bid bn files = inr ENoProfile
      | _ =>
          match w_disassemble W with
          | None => AggregateLbrData W o bid bn files = inr ENoDisassembler
          | Some dis => exists br ft, 
              AggregateLbrData W o bid bn files =
                inl ((br, ft), PStats (total (fun u => zlen (snd u)) us) (zlen us) (u64 (conv_int (total snd br))), fold_left (check_one dis) (w_by_address W (by_source (w_counters W br))) dstats0) /\
              good_map word2 br /\ good_map word2 ft /\
              (forall k, cget addr2_eqb k br = total (branch_samples bn k) us) /\ (forall k, cget addr2_eqb k ft = total (range_samples bn k) us)
          end
      end).
  Proof.
    unfold AggregateLbrData.
    destruct (loop_ok W o bid (fun m d => AggregateLBR m bn (pf_samples d)) (fg_world _ _ _ _ FG) files (fg_ids _ _ _ _ FG) (fg_alike _ _ _ _ FG) (S (length files)) pstats0 ([], []) ltac:(lia)) as [[UR E]|[AR [us [UA E]]]].
    - left. split; [exact UR|]. rewrite E. reflexivity.
    - right. split; [exact AR|]. exists us. split; [exact UA|]. rewrite E. cbn [pstats0 ps_mmaps ps_parsed ps_counters].
      destruct (us_words us UA) as [SW _]. destruct (lbr_all_good bn us SW ([], []) (good_nil _) (good_nil _)) as [G1 G2].
      assert (CT := lbr_all bn us). set (r := fold_left (fun r u => AggregateLBR (snd u) bn (pf_samples (fst u)) r) us ([], [])) in *.
      assert (C1 : forall k, cget addr2_eqb k (fst r) = total (branch_samples bn k) us) by (intros k; destruct (CT k ([], [])) as [X _]; exact X).
      assert (C2 : forall k, cget addr2_eqb k (snd r) = total (range_samples bn k) us) by (intros k; destruct (CT k ([], [])) as [_ X]; exact X).
      clearbody r. destruct r as [br ft]. cbn [fst snd] in *. rewrite !Z.add_0_l, zlen_zero.
      destruct us as [|u us]; [reflexivity|]. unfold CheckLbrAddress. destruct (w_disassemble W) as [dis|]; [|reflexivity].
      exists br, ft. split; [|auto]. rewrite number_total, (total_perm snd _ _ (wg_counters _ (fg_world _ _ _ _ FG) br)). reflexivity.
  Qed.
  Lemma spe_data bn :
    ((exists f, In f files /\ ~ readable W f) /\ AggregateBranchFrequencies W o bid bn files = inr ERead) \/
    ((forall f, In f files -> readable W f) /\ exists us, usable_among W o bid files us /\
      match us with
      | [] => AggregateBranchFrequencies W o bid bn files = inr ENoProfile
      | _ => exists tk nt,
              AggregateBranchFrequencies W o bid bn files = inl ((tk, nt), PStats (total (fun u => zlen (snd u)) us) (zlen us) (u64 (conv_int (total snd tk)))) /\
              good_map word2 tk /\ good_map word nt /\
              (forall k, cget addr2_eqb k tk = total (taken_samples bn k) us) /\ (forall a, cget Z.eqb a nt = total (not_taken_samples bn a) us)
      end).
  Proof.
    unfold AggregateBranchFrequencies.
    destruct (loop_ok W o bid (fun m d => AggregateSpe m bn (pf_spe d)) (fg_world _ _ _ _ FG) files (fg_ids _ _ _ _ FG) (fg_alike _ _ _ _ FG) (S (length files)) pstats0 ([], []) ltac:(lia)) as [[UR E]|[AR [us [UA E]]]].
    - left. split; [exact UR|]. rewrite E. reflexivity.
    - right. split; [exact AR|]. exists us. split; [exact UA|]. rewrite E. cbn [pstats0 ps_mmaps ps_parsed ps_counters].
      destruct (us_words us UA) as [_ SW]. destruct (spe_all_good bn us SW ([], []) (good_nil _) (good_nil _)) as [G1 G2].
      destruct (spe_all bn us ([], [])) as [C1 C2]. set (r := fold_left (fun r u => AggregateSpe (snd u) bn (pf_spe (fst u)) r) us ([], [])) in *.
      clearbody r. destruct r as [tk nt]. cbn [fst snd] in *. change (cget addr2_eqb ?k []) with 0 in C1. rewrite !Z.add_0_l, zlen_zero.
      destruct us as [|u us]; [reflexivity|].
      exists tk, nt. split; [|auto]. rewrite number_total, (total_perm snd _ _ (wg_counters _ (fg_world _ _ _ _ FG) tk)). reflexivity.
  Qed.
End Data.

(** The errors: a file that cannot be read stops the run; profiles that cannot
    be used are skipped, and it is an error if none is left. *)
Theorem C70_errors W o bid bn files : files_good W o bid files ->
  (AggregateLbrData W o bid bn files = inr ERead <-> exists f, In f files /\ ~ readable W f) /\
  (AggregateLbrData W o bid bn files = inr ENoProfile <->
     (forall f, In f files -> readable W f) /\ forall f d m, In f files -> ~ usable W o bid f d m) /\
  (AggregateLbrData W o bid bn files = inr ENoDisassembler <->
     (forall f, In f files -> readable W f) /\ (exists f d m, In f files /\ usable W o bid f d m) /\ w_disassemble W = None) /\
  (AggregateBranchFrequencies W o bid bn files = inr ERead <-> exists f, In f files /\ ~ readable W f) /\
  (AggregateBranchFrequencies W o bid bn files = inr ENoProfile <->
     (forall f, In f files -> readable W f) /\ forall f d m, In f files -> ~ usable W o bid f d m).
Proof.
  intros FG.
  assert (NN : forall us, usable_among W o bid files us -> us <> [] -> exists f d m, In f files /\ usable W o bid f d m).
  { intros us UA N. destruct us as [|u us]; [congruence|]. destruct (among_In _ _ _ _ _ u UA (or_introl eq_refl)) as [f [Hf Hu]]. eauto. }
  assert (NX : (forall f, In f files -> readable W f) -> (exists f, In f files /\ ~ readable W f) -> False) by (intros H [f [Hf N]]; exact (N (H f Hf))).
  destruct (lbr_data W o bid files FG bn) as [[UR E]|[AR [us [UA E]]]].
  - destruct (spe_data W o bid files FG bn) as [[_ E']|[AR _]]; [|destruct (NX AR UR)]. rewrite E, E'.
    split; [split; auto|]. split; [split; [discriminate|intros [H _]; destruct (NX H UR)]|]. split; [split; [discriminate|intros [H _]; destruct (NX H UR)]|]. split; [split; auto|split; [discriminate|intros [H _]; destruct (NX H UR)]].
  - destruct (spe_data W o bid files FG bn) as [[UR _]|[_ [us' [UA' E']]]]; [destruct (NX AR UR)|]. rewrite (among_det _ _ _ _ FG _ _ UA' UA) in *. clear us' UA'.
    pose proof (among_none _ _ _ _ _ UA) as AN. destruct us as [|u us].
    + pose proof (proj1 AN eq_refl) as NU. rewrite E, E'. split; [split; [discriminate|intros H; destruct (NX AR H)]|]. split; [split; auto|].
      split; [split; [discriminate|intros [_ [[f [d [m [Hf U]]]] _]]; destruct (NU f d m Hf U)]|]. split; [split; [discriminate|intros H; destruct (NX AR H)]|split; auto].
    + pose proof (NN _ UA ltac:(discriminate)) as EX. assert (NU : ~ forall f d m, In f files -> ~ usable W o bid f d m) by (intros H; destruct EX as [f [d [m [Hf U]]]]; exact (H f d m Hf U)).
      destruct E' as [tk [nt [E' _]]]. rewrite E'. assert (X : forall e, AggregateLbrData W o bid bn files = inr e <-> e = ENoDisassembler /\ w_disassemble W = None).
      { intros e. destruct (w_disassemble W) as [dis|]; [destruct E as [br [ft [E _]]]; rewrite E; split; [discriminate|intros [_ H]; discriminate]|]. rewrite E. split; [intros H; injection H as <-; auto|intros [-> _]; reflexivity]. }
      rewrite !X. split; [split; [intros [H _]; discriminate|intros H; destruct (NX AR H)]|]. split; [split; [intros [H _]; discriminate|intros [_ H]; destruct (NU H)]|].
      split; [split; [intros [_ H]; auto|intros [_ [_ H]]; auto]|]. split; [split; [discriminate|intros H; destruct (NX AR H)]|split; [discriminate|intros [_ H]; destruct (NU H)]].
Qed.
Print Assumptions C70_errors.

(** The counters are, key by key, the sums over all usable profiles, whatever
    else is among the files. *)
Theorem C70_counters W o bid bn files br ft stats ds : files_good W o bid files ->
  AggregateLbrData W o bid bn files = inl ((br, ft), stats, ds) ->
  exists us, usable_among W o bid files us /\ us <> [] /\
    counts same br (fun k => total (branch_samples bn k) us) /\
    counts same ft (fun k => total (range_samples bn k) us).
Proof.
  intros FG E. destruct (lbr_data W o bid files FG bn) as [[_ E']|[_ [us [UA E']]]]; [congruence|]. exists us. split; [exact UA|]. destruct us as [|u us]; [congruence|]. split; [discriminate|].
  destruct (w_disassemble W) as [dis|]; [|congruence]. destruct E' as [br' [ft' [E' [G1 [G2 [C1 C2]]]]]]. rewrite E in E'. injection E' as <- <- _ _.
  split; [exact (good_counts addr2_eqb addr2_eqb_spec _ _ _ G1 C1)|exact (good_counts addr2_eqb addr2_eqb_spec _ _ _ G2 C2)].
Qed.
Print Assumptions C70_counters.
Theorem C70_spe_counters W o bid bn files tk nt stats : files_good W o bid files ->
  AggregateBranchFrequencies W o bid bn files = inl ((tk, nt), stats) ->
  exists us, usable_among W o bid files us /\ us <> [] /\
    counts same tk (fun k => total (taken_samples bn k) us) /\
    counts Z.eqb nt (fun a => total (not_taken_samples bn a) us).
Proof.
  intros FG E. destruct (spe_data W o bid files FG bn) as [[_ E']|[_ [us [UA E']]]]; [congruence|]. exists us. split; [exact UA|]. destruct us as [|u us]; [congruence|]. split; [discriminate|].
  destruct E' as [tk' [nt' [E' [G1 [G2 [C1 C2]]]]]]. rewrite E in E'. injection E' as <- <- _.
  split; [exact (good_counts addr2_eqb addr2_eqb_spec _ _ _ G1 C1)|exact (good_counts Z.eqb Z.eqb_spec _ _ _ G2 C2)].
Qed.
Print Assumptions C70_spe_counters.

(** The order of the files does not matter for the counts, and files that
    cannot be used do not either. *)
Lemma among_perm W o bid files files' us : Permutation files files' -> usable_among W o bid files us -> exists us', usable_among W o bid files' us' /\ Permutation us us'.
Proof.
  intros P. revert us. induction P as [|f l l' P IH|f g l|l l' l'' P1 IH1 P2 IH2]; intros us U.
  - exists us. split; [exact U|reflexivity].
  - inversion U as [|? ? d m us0 V VA|? ? us0 NV VA]; subst; destruct (IH _ VA) as [us' [U' P']]; [exists ((d, m) :: us')|exists us']; (split; [|auto]); [constructor 2|constructor 3]; assumption.
  - inversion U as [|? ? d m us0 V VA|? ? us0 NV VA]; subst; inversion VA as [|? ? d' m' us1 V' VA'|? ? us1 NV' VA']; subst.
    + exists ((d', m') :: (d, m) :: us1). split; [repeat (constructor 2; [assumption|]); assumption|apply perm_swap].
    + eexists. split; [|reflexivity]. constructor 3; [exact NV'|]. constructor 2; assumption.
    + eexists. split; [|reflexivity]. constructor 2; [exact V'|]. constructor 3; assumption.
    + eexists. split; [|reflexivity]. constructor 3; [exact NV'|]. constructor 3; assumption.
  - destruct (IH1 _ U) as [us1 [U1 Q1]]. destruct (IH2 _ U1) as [us2 [U2 Q2]]. exists us2. split; [exact U2|]. etransitivity; eassumption.
Qed.
Lemma among_app W o bid fs us : usable_among W o bid fs us -> forall extra, (forall f d m, In f extra -> ~ usable W o bid f d m) -> usable_among W o bid (extra ++ fs) us.
Proof. intros U extra. induction extra as [|f extra IH]; intros H; cbn [app]; [exact U|]. constructor 3; [intros d m; apply H; left; reflexivity|]. apply IH. intros g d m Hg. apply H. right. exact Hg. Qed.
Theorem C70_order W o bid bn files files' extra br ft stats ds br' ft' stats' ds' :
  files_good W o bid files -> files_good W o bid files' -> Permutation (extra ++ files) files' -> (forall f d m, In f extra -> ~ usable W o bid f d m) ->
  AggregateLbrData W o bid bn files = inl ((br, ft), stats, ds) -> AggregateLbrData W o bid bn files' = inl ((br', ft'), stats', ds') ->
  (forall k, count_in same br k = count_in same br' k) /\ (forall k, count_in same ft k = count_in same ft' k).
Proof.
  intros FG FG' P NU E E'. destruct (C70_counters _ _ _ _ _ _ _ _ _ FG E) as [us [U [_ [C1 C2]]]]. destruct (C70_counters _ _ _ _ _ _ _ _ _ FG' E') as [us' [U' [_ [C1' C2']]]].
  destruct (among_perm _ _ _ _ _ _ P (among_app _ _ _ _ _ U extra NU)) as [us'' [U'' Q]]. rewrite (among_det _ _ _ _ FG' _ _ U'' U') in *.
  split; intros k; [rewrite (cn_count _ _ _ C1), (cn_count _ _ _ C1')|rewrite (cn_count _ _ _ C2), (cn_count _ _ _ C2')]; apply total_perm, Q.
Qed.
Print Assumptions C70_order.

(** * Statistics *)
(** The numbers of parsed profiles, of processes with a map of the binary and of
    branches, as long as the last is below 2^31. *)
Theorem C70_stats W o bid bn files br ft stats ds us : files_good W o bid files ->
  AggregateLbrData W o bid bn files = inl ((br, ft), stats, ds) -> usable_among W o bid files us ->
  ps_parsed stats = zlen us /\ ps_mmaps stats = total (fun u => zlen (snd u)) us /\
  (total snd br < 2 ^ 31 -> ps_counters stats = total snd br).
Proof.
  intros FG E UA. destruct (lbr_data W o bid files FG bn) as [[_ E']|[_ [us' [UA' E']]]]; [congruence|]. rewrite (among_det _ _ _ _ FG _ _ UA' UA) in *. clear us' UA'. destruct us as [|u us]; [congruence|].
  destruct (w_disassemble W) as [dis|]; [|congruence]. destruct E' as [br' [ft' [E' [G1 [G2 [C1 C2]]]]]]. rewrite E in E'. injection E' as <- <- -> _. cbn [ps_parsed ps_mmaps ps_counters].
  split; [reflexivity|]. split; [reflexivity|]. intros H. assert (0 <= total snd br). { destruct G1 as [_ G1]. clear - G1. induction br as [|c br IH]; cbn [total]; [lia|]. destruct (G1 c (or_introl eq_refl)). specialize (IH (fun x Hx => G1 x (or_intror Hx))). lia. }
  unfold conv_int, u64, w64. rewrite (Z.mod_small (total snd br + 2 ^ 31)) by lia. rewrite Z.mod_small; lia.
Qed.
Print Assumptions C70_stats.

(** Every address that is the source of a sampled branch is in one of three
    classes, counted once and with the number of its branches. *)
Theorem C70_disassembly W o bid bn files br ft stats ds dis : files_good W o bid files ->
  AggregateLbrData W o bid bn files = inl ((br, ft), stats, ds) -> w_disassemble W = Some dis ->
  exists sources, NoDup sources /\ (forall a, In a sources <-> a <> 2 ^ 64 - 1 /\ exists to w, In (a, to, w) br) /\
  let numbers (s : stat) (class : Z -> bool) :=
    st_absolute s = count class sources /\ st_weighted s = total (fun c => if negb (fst (fst c) =? 2 ^ 64 - 1) && class (fst (fst c)) then snd c else 0) br in
  numbers (ds_could_not ds) (fun a => match dis a with None => true | _ => false end) /\
  numbers (ds_may ds) (fun a => match dis a with Some true => true | _ => false end) /\
  numbers (ds_cant ds) (fun a => match dis a with Some false => true | _ => false end).
Proof.
  intros FG E DIS. destruct (lbr_data W o bid files FG bn) as [[_ E']|[_ [us [UA E']]]]; [congruence|]. destruct us as [|u us]; [congruence|].
  rewrite DIS in E'. destruct E' as [br' [ft' [E' [G1 _]]]]. rewrite E in E'. injection E' as <- <- _ ->.
  pose proof (wg_counters _ (fg_world _ _ _ _ FG) br) as PC. pose proof (wg_by_address _ (fg_world _ _ _ _ FG) (by_source (w_counters W br))) as PA.
  set (l := w_by_address W (by_source (w_counters W br))) in *. destruct (by_source_ok (w_counters W br) [] (NoDup_nil _)) as [B1 [B2 B3]]. cbv zeta in *. fold (by_source (w_counters W br)) in B1, B2, B3.
  clearbody l. exists (map fst l). split; [exact (Permutation_NoDup (Permutation_map fst (Permutation_sym PA)) B1)|]. split.
  { intros a. assert (I1 : In a (map fst l) <-> In a (map fst (by_source (w_counters W br)))) by (split; apply Permutation_in, Permutation_map; [exact PA|symmetry; exact PA]). rewrite I1, B2.
    change (2 ^ 64 - 1) with kInvalid. split; [intros [[]|[H [t [w Hw]]]]; split; [exact H|]; exists t, w; exact (Permutation_in _ PC Hw)|intros [H [t [w Hw]]]; right; split; [exact H|]; exists t, w; exact (Permutation_in _ (Permutation_sym PC) Hw)]. }
  change (2 ^ 64 - 1) with kInvalid.
  assert (G : forall x (class : Z -> bool), (forall a, is_class (dis a) x = class a) ->
     st_absolute (class_stat (fold_left (check_one dis) l dstats0) x) = count class (map fst l) /\
     st_weighted (class_stat (fold_left (check_one dis) l dstats0) x) = total (fun c => if negb (fst (fst c) =? kInvalid) && class (fst (fst c)) then snd c else 0) br).
  { intros x class CL. destruct (check_all dis l x dstats0) as [-> ->]. assert (Z0 : st_absolute (class_stat dstats0 x) = 0 /\ st_weighted (class_stat dstats0 x) = 0) by (destruct x as [[|]|]; split; reflexivity). destruct Z0 as [-> ->].
    split; [rewrite Z.add_0_l; apply count_ext; exact CL|]. rewrite Z.add_0_l, (total_perm _ _ _ PA), (B3 (fun a => is_class (dis a) x)). cbn [total]. rewrite Z.add_0_l, <- (total_perm _ _ _ PC).
    clear - CL. induction (w_counters W br) as [|c cs IH]; cbn [total]; [reflexivity|]. rewrite CL, IH. reflexivity. }
  split; [apply (G None); intros a; destruct (dis a) as [[|]|]; reflexivity|]. split; [apply (G (Some true)); intros a; destruct (dis a) as [[|]|]; reflexivity|apply (G (Some false)); intros a; destruct (dis a) as [[|]|]; reflexivity].
Qed.
Print Assumptions C70_disassembly.

(** * The kind of profile *)
Lemma dedup_ok l : NoDup (dedup l) /\ forall x, In x (dedup l) <-> In x l.
Proof.
  assert (G : forall s, NoDup s -> NoDup (fold_left (fun s t => if existsb (Z.eqb t) s then s else s ++ [t]) l s) /\
     forall x, In x (fold_left (fun s t => if existsb (Z.eqb t) s then s else s ++ [t]) l s) <-> In x s \/ In x l).
  { induction l as [|t l IH]; intros s N; cbn [fold_left]; [split; [exact N|]; intros x; cbn [In]; tauto|]. destruct (existsb (Z.eqb t) s) eqn:E.
    - destruct (IH s N) as [I1 I2]. split; [exact I1|]. intros x. rewrite I2. apply existsb_exists in E as [y [Hy Ey]]. apply Z.eqb_eq in Ey. subst y. cbn [In]. split; [tauto|]. intros [H|[H|H]]; subst; auto.
    - assert (N' : NoDup (s ++ [t])). { apply NoDup_snoc; [exact N|]. intros H. assert (existsb (Z.eqb t) s = true) by (apply existsb_exists; exists t; split; [exact H|apply Z.eqb_refl]). congruence. }
      destruct (IH _ N') as [I1 I2]. split; [exact I1|]. intros x. rewrite I2, in_app_iff. cbn [In]. tauto. }
  destruct (G [] (NoDup_nil _)) as [G1 G2]. split; [exact G1|]. intros x. unfold dedup. rewrite G2. cbn [In]. tauto.
Qed.
Theorem C70_type o :
  (GetProfileType o = inr ENoInput <-> o_inputs o = []) /\
  (GetProfileType o = inr EMixed <-> exists p q, In p (o_inputs o) /\ In q (o_inputs o) /\ kind (snd p) <> kind (snd q)) /\
  (forall t, GetProfileType o = inl t <-> o_inputs o <> [] /\ forall p, In p (o_inputs o) -> kind (snd p) = t).
Proof.
  unfold GetProfileType. destruct (o_inputs o) as [|p0 ps] eqn:EI.
  { split; [split; reflexivity|]. split; [split; [discriminate|intros [p [q [[] _]]]]|]. intros t. split; [discriminate|intros [H _]; congruence]. }
  rewrite <- EI. assert (NE : o_inputs o <> []) by congruence. set (ps' := o_inputs o) in *. clearbody ps'. clear EI.
  change (map (fun p : name * Z => if snd p =? 0 then 1 else snd p) ps') with (map (fun p : name * Z => kind (snd p)) ps').
  destruct (dedup_ok (map (fun p : name * Z => kind (snd p)) ps')) as [N I]. set (ts := dedup _) in *. clearbody ts.
  assert (EX : forall t, In t ts <-> exists p, In p ps' /\ kind (snd p) = t) by (intros t; rewrite I, in_map_iff; split; intros [p [H1 H2]]; eauto).
  destruct ts as [|t [|t' ts]].
  - exfalso. destruct ps' as [|p ps']; [congruence|]. apply (proj2 (EX (kind (snd p)))). exists p. split; [left; reflexivity|reflexivity].
  - cbn [length Nat.ltb Nat.leb hd]. split; [split; [discriminate|congruence]|].
    assert (AL : forall p, In p ps' -> kind (snd p) = t) by (intros p Hp; destruct (proj2 (EX (kind (snd p))) (ex_intro _ p (conj Hp eq_refl))) as [H|[]]; congruence).
    split; [split; [discriminate|]; intros [p [q [Hp [Hq H]]]]; rewrite (AL p Hp), (AL q Hq) in H; congruence|].
    intros t'. split; [intros H; injection H as <-; auto|]. intros [_ H]. f_equal. destruct ps' as [|p ps']; [congruence|]. rewrite <- (H p (or_introl eq_refl)). symmetry. apply AL. left. reflexivity.
  - change (1 <? length (t :: t' :: ts))%nat with true. cbv iota. destruct (proj1 (EX t) (or_introl eq_refl)) as [p [Hp Ep]]. destruct (proj1 (EX t') (or_intror (or_introl eq_refl))) as [q [Hq Eq]].
    assert (t <> t') by (inversion N as [|? ? N1 N2]; subst; intros H; apply N1; left; congruence).
    split; [split; [discriminate|congruence]|]. split; [split; [intros _; exists p, q; split; [exact Hp|split; [exact Hq|congruence]]|reflexivity]|]. intros x. split; [discriminate|]. intros [_ H']. rewrite (H' p Hp) in Ep. rewrite (H' q Hq) in Eq. congruence.
Qed.
Print Assumptions C70_type.

(** * The run *)
Section Run.
  Context (verbose : bool) (v : version) (scores : finfo -> text) (W : world) (o : options) (I : image) (S : settings).
  Let files := map fst (o_inputs o).
  Let bid := im_build_id I.
  Hypothesis FG : files_good W o bid files.
  Hypothesis NAMES : o_profile_names o = [].
  Hypothesis BG : binary_good v (im_binary I).
  Hypothesis SG : settings_good S.
  Hypothesis SC : forall z, WriterSpec.free [10] (scores z) /\ hd 0 (scores z) = 35.
  Lemma counters_of (br ft : list counter) : good_map word2 br -> good_map word2 ft -> counters_good br ft.
  Proof.
    intros [_ G1] [_ G2] c Hc. apply in_app_or in Hc as [Hc|Hc]; [destruct (G1 c Hc) as [P [A1 A2]]|destruct (G2 c Hc) as [P [A1 A2]]]; unfold word in *; (split; [lia|split; assumption]).
  Qed.
  Lemma good_map_perm {K} (ok : K -> Prop) m m' : Permutation m' m -> good_map ok m -> good_map ok m'.
  Proof. intros P [N G]. split; [exact (Permutation_NoDup (Permutation_map fst (Permutation_sym P)) N)|]. intros c Hc. apply G. exact (Permutation_in _ P Hc). Qed.

  Theorem C70_lbr_run us :
    o_inputs o <> [] -> (forall p, In p (o_inputs o) -> kind (snd p) = 1) ->
    (forall f, In f files -> readable W f) -> usable_among W o bid files us -> us <> [] -> w_disassemble W <> None ->
    exists branches falls mp,
      counts same branches (fun k => total (branch_samples (im_segments I) k) us) /\
      counts same falls (fun k => total (range_samples (im_segments I) k) us) /\
      BuildMapper (s_names S) (s_text_only S) (x_funcs (im_binary I)) (x_info (im_binary I)) (Some (s_addr S (GetUniqueAddresses branches falls))) = Ok mp /\
      (10 * transitions mp branches falls < 2 ^ 31 ->
       (GeneratePropellerProfiles false verbose v scores W o I S = Ok (inr EEdges) /\ exists a b c d, s_reject S a b c d = true) \/
       exists cc ld es, GeneratePropellerProfiles false verbose v scores W o I S = Ok (inl (cc, ld)) /\ read_file cc = Some es /\
         cluster_file (im_binary I) S mp branches falls es).
  Proof.
    intros NE TY AR UA NU DIS. assert (ET : GetProfileType o = inl 1) by (apply (proj2 (proj2 (C70_type o))); auto).
    destruct (lbr_data W o bid files FG (im_segments I)) as [[[f [Hf UR]] _]|[_ [us' [UA' E]]]]; [destruct (UR (AR f Hf))|]. rewrite (among_det _ _ _ _ FG _ _ UA' UA) in *. clear us' UA'.
    destruct us as [|u us]; [congruence|]. destruct (w_disassemble W) as [dis|] eqn:ED; [|congruence]. destruct E as [br [ft [E [G1 [G2 [C1 C2]]]]]].
    pose proof (wg_counters _ (fg_world _ _ _ _ FG)) as PC.
    assert (CG : counters_good (w_counters W br) (w_counters W ft)) by (apply counters_of; [exact (good_map_perm _ _ _ (PC br) G1)|exact (good_map_perm _ _ _ (PC ft) G2)]).
    exists (w_counters W br), (w_counters W ft).
    destruct (compute_cluster_file verbose v scores (im_binary I) S _ (fun _ => Ok (w_counters W br, w_counters W ft)) BG SG (unique_addresses_word _ _ CG) SC) as [mp [b [fl [EM [EA H]]]]].
    { intros mp _. eexists _, _. split; [reflexivity|exact CG]. }
    injection EA as <- <-. exists mp.
    split; [exact (counts_perm addr2_eqb _ _ _ (PC br) (good_counts addr2_eqb addr2_eqb_spec _ _ _ G1 C1))|].
    split; [exact (counts_perm addr2_eqb _ _ _ (PC ft) (good_counts addr2_eqb addr2_eqb_spec _ _ _ G2 C2))|]. split; [exact EM|]. intros TR. specialize (H TR).
    unfold GeneratePropellerProfiles. rewrite NAMES, ET. fold files. fold bid. rewrite E. cbn [Z.eqb Pos.eqb].
    destruct H as [[H1 H2]|[cc [ld [es [H1 [H2 H3]]]]]]; rewrite H1; cbn [obind]; [left; auto|right]. exists cc, ld, es. auto.
  Qed.

  Theorem C70_spe_run us :
    match im_isize I with Some n => 0 <= n < 2 ^ 31 | None => True end ->
    o_inputs o <> [] -> (forall p, In p (o_inputs o) -> snd p = 2) ->
    (forall f, In f files -> readable W f) -> usable_among W o bid files us -> us <> [] ->
    exists taken not_taken addrs falls mp ks ft,
      counts same taken (fun k => total (taken_samples (im_segments I) k) us) /\
      counts Z.eqb not_taken (fun a => total (not_taken_samples (im_segments I) a) us) /\
      (forall a, In a addrs <-> (exists b w, In (a, b, w) taken \/ In (b, a, w) taken) \/ exists w, In (a, w) not_taken) /\
      BuildMapper (s_names S) (s_text_only S) (x_funcs (im_binary I)) (x_info (im_binary I)) (Some addrs) = Ok mp /\
      flow_equations mp (im_isize I) taken not_taken ks ft /\
      (forall A B, count_in same falls (A, B) = range_sum mp ft A B ks) /\
      (10 * transitions mp taken falls < 2 ^ 31 ->
       (GeneratePropellerProfiles false verbose v scores W o I S = Ok (inr EEdges) /\ exists a b c d, s_reject S a b c d = true) \/
       exists cc ld es, GeneratePropellerProfiles false verbose v scores W o I S = Ok (inl (cc, ld)) /\ read_file cc = Some es /\
         cluster_file (im_binary I) S mp taken falls es).
  Proof.
    intros ISZ NE TY AR UA NU. assert (ET : GetProfileType o = inl 2) by (apply (proj2 (proj2 (C70_type o))); split; [exact NE|]; intros p Hp; unfold kind; rewrite (TY p Hp); reflexivity).
    destruct (spe_data W o bid files FG (im_segments I)) as [[[f [Hf UR]] _]|[_ [us' [UA' E]]]]; [destruct (UR (AR f Hf))|]. rewrite (among_det _ _ _ _ FG _ _ UA' UA) in *. clear us' UA'.
    destruct us as [|u us]; [congruence|]. destruct E as [tk [nt [E [G1 [G2 [C1 C2]]]]]].
    pose proof (wg_counters _ (fg_world _ _ _ _ FG)) as PC. pose proof (wg_by_address _ (fg_world _ _ _ _ FG)) as PA.
    pose proof (good_map_perm _ _ _ (PC tk) G1) as G1'. pose proof (good_map_perm _ _ _ (PA nt) G2) as G2'.
    set (taken := w_counters W tk) in *. set (not_taken := w_by_address W nt) in *. set (addrs := GetBranchEndpointAddresses taken not_taken).
    assert (AI : forall a, In a addrs <-> (exists b w, In (a, b, w) taken \/ In (b, a, w) taken) \/ exists w, In (a, w) not_taken).
    { intros a. unfold addrs. rewrite C38_endpoints. split.
      - intros [[[[x y] w] [Hc [<-|<-]]]|[[x w] [Hc <-]]]; [left; exists y, w; left; exact Hc|left; exists x, w; right; exact Hc|right; exists w; exact Hc].
      - intros [[b [w [H|H]]]|[w H]]; [left; exists (a, b, w); auto|left; exists (b, a, w); auto|right; exists (a, w); auto]. }
    assert (AW : forall a, In a addrs -> 0 <= a < w64).
    { intros a Ha. apply AI in Ha as [[b [w [H|H]]]|[w H]]; [destruct (proj2 G1' _ H) as [_ [X _]]; exact X|destruct (proj2 G1' _ H) as [_ [_ X]]; exact X|destruct (proj2 G2' _ H) as [_ X]; exact X]. }
    set (agg := fun mp => let! ft := InferFallthroughs false (im_isize I) mp taken not_taken in Ok (taken, w_counters W ft)).
    assert (INF : forall mp, BuildMapper (s_names S) (s_text_only S) (x_funcs (im_binary I)) (x_info (im_binary I)) (Some (s_addr S addrs)) = Ok mp ->
       exists res ks ft, InferFallthroughs false (im_isize I) mp taken not_taken = Ok res /\ flow_equations mp (im_isize I) taken not_taken ks ft /\
         (forall A B, count_of res A B = range_sum mp ft A B ks) /\ good_map word2 res).
    { intros mp EM. assert (AO : addrs_ok (Some (s_addr S addrs))) by (intros a Ha; apply (Permutation_in _ (sg_addr _ SG _)) in Ha; apply AW, Ha).
      pose proof (proj1 (C34_blocks _ _ _ _ _ _ (bg_ok _ _ BG) AO EM)) as L. destruct (C38_total (im_isize I) mp taken not_taken) as [res ER].
      destruct (C38_flow _ _ _ _ _ _ L ISZ (proj1 G2') ER) as [ks [ft [F1 F2]]]. exists res, ks, ft. split; [exact ER|]. split; [exact F1|]. split; [exact F2|]. split.
      - unfold InferFallthroughs in ER. destruct (ComputeBlockWeights _ _ _ _ _) as [wm| |]; cbn [obind] in ER; try discriminate. injection ER as <-.
        assert (X : forall m p acc, NoDup (map fst acc) -> NoDup (map fst (infer_loop mp p m acc))); [|apply X; constructor].
        assert (HF : forall a b w acc, NoDup (map fst acc) -> NoDup (map fst (HandleFallthrough mp a b w acc))).
        { intros a b w acc N. unfold HandleFallthrough. destruct (FindFallthroughEndBlock mp a b); [|exact N]. cbv zeta. exact (NoDup_akeys_aset zpair_eqb addr2_eqb_spec _ _ acc N). }
        clear - HF. induction m as [|[i x] m IH]; intros p acc N; cbn [infer_loop]; [destruct p as [[a b]|]; [apply HF|]; exact N|]. destruct p as [[a b]|]; cbv zeta; apply IH; [apply HF|]; exact N.
      - intros [[A B] w] Hc. destruct (C38_ranges_valid _ _ _ _ _ _ A B w L ISZ (proj1 G2') ER Hc) as [k [e [Hk [<- [<- [_ [_ P]]]]]]]. cbn [fst snd]. split; [exact P|].
        destruct L as [L _]. destruct (L k ltac:(lia)) as [L1 L2]. destruct (L e ltac:(lia)) as [L3 L4]. unfold word2, word. cbn [fst snd]. lia. }
    destruct (compute_cluster_file verbose v scores (im_binary I) S addrs agg BG SG AW SC) as [mp [b [fl [EM [EA H]]]]].
    { intros mp EM. destruct (INF mp EM) as [res [ks [ft [ER [_ [_ GR]]]]]]. exists taken, (w_counters W res). split; [unfold agg; rewrite ER; reflexivity|]. apply counters_of; [exact G1'|exact (good_map_perm _ _ _ (PC res) GR)]. }
    destruct (INF mp EM) as [res [ks [ft [ER [FE [FC GR]]]]]]. unfold agg in EA. rewrite ER in EA. cbn [obind] in EA. injection EA as <- <-.
    exists taken, not_taken, (s_addr S addrs), (w_counters W res), mp, ks, ft.
    split; [exact (counts_perm addr2_eqb _ _ _ (PC tk) (good_counts addr2_eqb addr2_eqb_spec _ _ _ G1 C1))|].
    split; [exact (counts_perm Z.eqb _ _ _ (PA nt) (good_counts Z.eqb Z.eqb_spec _ _ _ G2 C2))|].
    split; [intros a; rewrite <- AI; split; apply Permutation_in; [|symmetry]; apply (sg_addr _ SG)|]. split; [exact EM|]. split; [exact FE|]. split.
    { intros A B. rewrite <- FC. unfold count_in. rewrite (total_perm _ _ _ (PC res)). exact (count_in_cget addr2_eqb addr2_eqb_spec res (A, B) (proj1 GR)). }
    intros TR. specialize (H TR). unfold GeneratePropellerProfiles. rewrite NAMES, ET. fold files. fold bid. rewrite E. cbn [Z.eqb Pos.eqb]. fold taken. fold not_taken. fold addrs. fold agg.
    destruct H as [[H1 H2]|[cc [ld [es [H1 [H2 H3]]]]]]; rewrite H1; cbn [obind]; [left; auto|right]. exists cc, ld, es. auto.
  Qed.
End Run.
Print Assumptions C70_lbr_run.
Print Assumptions C70_spe_run.

(** What ends a run before the layout, with nothing written. *)
Theorem C70_refuses verbose v scores W o I S : files_good W o (im_build_id I) (map fst (o_inputs o)) ->
  let run := GeneratePropellerProfiles false verbose v scores W o I S in
  (o_profile_names o <> [] -> run = Ok (inr EDeprecated)) /\
  (o_profile_names o = [] -> o_inputs o = [] -> run = Ok (inr ENoInput)) /\
  (forall p q, o_profile_names o = [] -> In p (o_inputs o) -> In q (o_inputs o) -> kind (snd p) <> kind (snd q) -> run = Ok (inr EMixed)) /\
  (forall t, o_profile_names o = [] -> o_inputs o <> [] -> (forall p, In p (o_inputs o) -> kind (snd p) = t) ->
     (t <> 1 -> t <> 2 -> run = Ok (inr EUnsupported)) /\
     (t = 1 \/ t = 2 -> (exists p, In p (o_inputs o) /\ ~ readable W (fst p)) -> run = Ok (inr ERead)) /\
     (t = 1 \/ t = 2 -> (forall p, In p (o_inputs o) -> readable W (fst p)) -> (forall p d m, In p (o_inputs o) -> ~ usable W o (im_build_id I) (fst p) d m) ->
        run = Ok (inr ENoProfile))).
Proof.
  intros FG run. unfold run, GeneratePropellerProfiles. destruct (C70_type o) as [T1 [T2 T3]].
  split; [intros N; destruct (o_profile_names o); [congruence|reflexivity]|]. split; [intros -> EI; rewrite (proj2 T1 EI); reflexivity|].
  split; [intros p q -> Hp Hq NE; rewrite (proj2 T2 (ex_intro _ p (ex_intro _ q (conj Hp (conj Hq NE))))); reflexivity|].
  intros t EN NE AL. rewrite EN, (proj2 (T3 t) (conj NE AL)). pose proof (C70_errors W o (im_build_id I) (im_segments I) _ FG) as [E1 [E2 [_ [E3 E4]]]].
  split; [intros N1 N2; destruct (Z.eqb_spec t 1); [contradiction|]; destruct (Z.eqb_spec t 2); [contradiction|reflexivity]|].
  split.
  - intros Ht [p [Hp NR]]. assert (X : exists f, In f (map fst (o_inputs o)) /\ ~ readable W f) by (exists (fst p); split; [apply in_map, Hp|exact NR]).
    destruct Ht as [-> | ->]; cbn [Z.eqb Pos.eqb]; [rewrite (proj2 E1 X)|rewrite (proj2 E3 X)]; reflexivity.
  - intros Ht AR NU. assert (X : (forall f, In f (map fst (o_inputs o)) -> readable W f) /\ forall f d m, In f (map fst (o_inputs o)) -> ~ usable W o (im_build_id I) f d m).
    { split; intros f; [|intros d m]; intros Hf; apply in_map_iff in Hf as [p [<- Hp]]; [apply AR, Hp|apply NU, Hp]. }
    destruct Ht as [-> | ->]; cbn [Z.eqb Pos.eqb]; [rewrite (proj2 E2 X)|rewrite (proj2 E4 X)]; reflexivity.
Qed.
Print Assumptions C70_refuses.

(** * Examples *)
Definition g_file (c : Z) : name := [112; c].
Definition g_event : mmap_event := MMapEvent (Some 7) (Some 0) (Some 4096) (Some 0) (Some [47; 97]).
Definition g_stack : list (Z * Z) := [(79, 32); (31, 64); (25, 22); (25, 22)].
Definition g_profile (id : Z) (n : nat) : profile := Profile [g_event] [(Some [47; 97], Some [id])] (repeat (Sample (Some 7) g_stack) n)
  [SpeRecord 7 true true true true 25 0; SpeRecord 7 true true false false 31 64; SpeRecord 7 true true true false 25 22; SpeRecord 9 true true true false 25 22; SpeRecord 7 true true false false 79 32].
Definition g_slash (n : name) : bool := match n with 47 :: _ => true | _ => false end.
Definition g_world : world := World g_slash (fun n => n) (fun l => l) (fun l => l) (fun l => l)
  (fun f => if name_eqb f (g_file 1) then Some (Some (g_profile 171 2)) else if name_eqb f (g_file 2) then Some (Some (g_profile 172 5))
            else if name_eqb f (g_file 3) then Some None else if name_eqb f (g_file 4) then Some (Some (g_profile 171 1)) else None)
  (Some (fun a => if a =? 25 then Some true else if a =? 31 then Some false else None)).
Definition g_options (t : Z) : options := Options [47; 97] None false [] [(g_file 1, t); (g_file 2, t); (g_file 3, t); (g_file 4, t)].
Definition g_image : image := Image (MMapModel.Binary false [Segment 0 0 4096]) [97; 98] (Some 4) e_binary.
Definition g_maps : mmaps := [(7, [MMapEntry 0 4096 0 [47; 97]])].
Definition g_files : list name := [g_file 1; g_file 2; g_file 3; g_file 4].
Lemma g_files_good t : files_good g_world (g_options t) [97; 98] g_files.
Proof.
  assert (FD : forall f d, In f g_files -> w_file g_world f = Some (Some d) -> exists id k, d = g_profile id k /\ (id = 171 \/ id = 172)).
  { intros f d [<-|[<-|[<-|[<-|[]]]]]; cbn; intros E; try discriminate; injection E as <-; eexists _, _; split; reflexivity || auto. }
  constructor.
  - constructor; intros l; reflexivity.
  - intros f d n h x Hf E. destruct (FD f d Hf E) as [id [k [-> Hid]]]. cbn [pf_build_ids g_profile In]. intros [H|[]]. injection H as <- <-. intros [<-|[]]. destruct Hid; lia.
  - intros f d ns n n' Hf E L Hn Hn'. destruct (FD f d Hf E) as [id [k [-> Hid]]].
    assert (X : forall n, In n ns -> n = [47; 97]).
    { inversion L as [m E1 E2 E3|E1 E2 E3 E4|ms E1 E2 E3 E4 E5]; subst; [discriminate|discriminate|]. intros y Hy. apply E5 in Hy. destruct Hy as [[h [H _]] _]. destruct H as [H|[]]. congruence. }
    rewrite (X n Hn), (X n' Hn'). reflexivity.
  - intros f d Hf E. destruct (FD f d Hf E) as [id [k [-> _]]]. split.
    + intros s e Hs He. cbn [pf_samples g_profile] in Hs. apply repeat_spec in Hs. subst s. cbn [sa_stack g_stack In] in He. unfold word, w64. destruct He as [<-|[<-|[<-|[<-|[]]]]]; cbn; lia.
    + intros s Hs. cbn [pf_spe g_profile In] in Hs. unfold word, w64. destruct Hs as [<-|[<-|[<-|[<-|[<-|[]]]]]]; cbn; lia.
Qed.
Lemma g_usable t : usable_among g_world (g_options t) [97; 98] g_files [(g_profile 171 2, g_maps); (g_profile 171 1, g_maps)].
Proof.
  assert (HX : hex_text [171] [97; 98]) by (change 171 with (16 * 10 + 11); constructor; [right; lia|right; lia|constructor]).
  assert (LF : forall k, looked_for (g_options t) [97; 98] (g_profile 171 k) [[47; 97]]).
  { intros k. apply lf_build_id; [right; split; [reflexivity|left; reflexivity]|discriminate|discriminate|constructor; [intros []|constructor]|].
    intros n. split.
    - intros [<-|[]]. split; [exists [171]; split; [left; reflexivity|exact HX]|]. split; [discriminate|]. split; intros [r H]; discriminate H.
    - intros [[h [[H|[]] _]] _]. left. congruence. }
  assert (US : forall f k, w_file g_world f = Some (Some (g_profile 171 k)) -> usable g_world (g_options t) [97; 98] f (g_profile 171 k) g_maps).
  { intros f k E. split; [exact E|]. exists [[47; 97]]. split; [apply LF|vm_compute; reflexivity]. }
  unfold g_files. constructor 2; [apply US; reflexivity|]. constructor 3.
  { intros d m [E [ns [L _]]]. assert (d = g_profile 172 5) by (cbn in E; congruence). subst d.
    inversion L as [m' E1 E2 E3|E1 E2 E3 E4|ms E1 E2 E3 E4 E5]; subst; [discriminate|discriminate|]. destruct ns as [|n ns]; [congruence|]. destruct (proj1 (E5 n) (or_introl eq_refl)) as [[h [[H|[]] HT]] _].
    injection H as <- <-. assert (Y : forall l t, hex_text l t -> l = [172] -> t = [97; 98] -> False); [|exact (Y _ _ HT eq_refl eq_refl)].
    intros l t' HX' El Et. destruct HX' as [|hi lo c d l t0 D1 D2 HT']; [discriminate|]. injection Et as -> -> ->. assert (Q : 16 * hi + lo = 172) by congruence. unfold hex_digit in *. clear - D1 D2 Q. lia. }
  constructor 3; [intros d m [E _]; cbn in E; discriminate|]. constructor 2; [apply US; reflexivity|constructor].
Qed.
Example C70_nonvacuous :
  (forall t, files_good g_world (g_options t) (im_build_id g_image) (map fst (o_inputs (g_options t)))) /\
  (forall t, usable_among g_world (g_options t) (im_build_id g_image) (map fst (o_inputs (g_options t))) [(g_profile 171 2, g_maps); (g_profile 171 1, g_maps)]) /\
  binary_good V1 (im_binary g_image) /\ settings_good (e_settings true) /\
  AggregateLbrData g_world (g_options 0) [97; 98] (im_segments g_image) g_files =
    inl (([((25, 22), 6); ((31, 64), 3); ((79, 32), 3)], [((22, 25), 3); ((22, 31), 3); ((64, 79), 3)]), PStats 2 2 12, DStats (Stat 1 3) (Stat 1 6) (Stat 1 3)) /\
  AggregateBranchFrequencies g_world (g_options 2) [97; 98] (im_segments g_image) g_files = inl (([((31, 64), 2); ((25, 22), 2); ((79, 32), 2)], [(25, 2)]), PStats 2 2 6) /\
  match GeneratePropellerProfiles false false V1 e_scores g_world (g_options 0) g_image (e_settings true) with
  | Ok (inl (cc, _)) => read_file cc = Some [FEntry [e_text "bar"%string; e_text "baz"%string] (Some (e_text "m.cc"%string)) [] [[(0, 0); (2, 0)]]; FEntry [e_text "foo"%string] None [] [[(0, 0); (2, 0); (4, 0); (6, 0)]]]
  | _ => False
  end /\
  match GeneratePropellerProfiles false false V1 e_scores g_world (g_options 2) g_image (e_settings true) with
  | Ok (inl (cc, _)) => exists es, read_file cc = Some es /\ length es = 2%nat
  | _ => False
  end.
Proof.
  split; [exact g_files_good|]. split; [exact g_usable|]. destruct C69_nonvacuous as [B [S _]]. split; [exact B|]. split; [exact S|].
  split; [vm_compute; reflexivity|]. split; [vm_compute; reflexivity|]. split; vm_compute; [reflexivity|]. eexists. split; reflexivity.
Qed.

(** A comment in the aggregators says that the name of the binary is matched if
    the binary has no build id.  It is not: every profile is skipped. *)
Theorem C70_no_build_id_refuted :
  exists o, o_binary o = [47; 97] /\ o_profiled o = None /\ In g_event (pf_events (g_profile 171 2)) /\ ev_file g_event = Some (o_binary o) /\
    AggregateLbrData g_world o [] (im_segments g_image) [g_file 1] = inr ENoProfile.
Proof. exists (g_options 0). split; [reflexivity|]. split; [reflexivity|]. split; [left; reflexivity|]. split; [reflexivity|vm_compute; reflexivity]. Qed.
Print Assumptions C70_no_build_id_refuted.

(** The number of branches is accumulated in an int: 2^31 sampled branches are
    reported as a number just below 2^64. *)
Definition g_big (l : list sample) : profile := Profile [g_event] [(Some [47; 97], Some [171])] l [].
Definition g_big_world (l : list sample) : world := World g_slash (fun n => n) (fun l => l) (fun l => l) (fun l => l) (fun f => Some (Some (g_big l))) (Some (fun _ => None)).
Lemma big_reader l l' : BuildPerfDataReader (g_big_world l) [97; 98] (Some (g_big l')) (ResolveMmapName (g_options 1)) = inl g_maps.
Proof. vm_compute. reflexivity. Qed.
Lemma big_disassembly l : CheckLbrAddress (g_big_world l) [((25, 22), 2 ^ 31)] = inl (DStats (Stat 1 (2 ^ 31)) stat0 stat0).
Proof. vm_compute. reflexivity. Qed.
Lemma big_counts m bn pid k n : sample_pid m (Sample (Some 7) [(25, 22)]) = Some pid -> k = (RuntimeAddressToBinaryAddress m bn pid 25, RuntimeAddressToBinaryAddress m bn pid 22) ->
  AggregateLBR m bn (repeat (Sample (Some 7) [(25, 22)]) n) ([], []) = match n with O => ([], []) | _ => ([(k, Z.of_nat n)], []) end.
Proof.
  intros E Ek. unfold AggregateLBR. assert (G : forall n c, 0 < c -> fold_left (fun r s => match sample_pid m s with None => r | Some pid => lbr_loop (RuntimeAddressToBinaryAddress m bn pid) kInvalid (rev (sa_stack s)) r end)
     (repeat (Sample (Some 7) [(25, 22)]) n) ([(k, c)], []) = ([(k, c + Z.of_nat n)], [])).
  { clear n. induction n as [|n IH]; intros c Hc; cbn [repeat fold_left]; [rewrite Z.add_0_r; reflexivity|]. rewrite E. cbn [sa_stack rev app lbr_loop]. rewrite <- Ek, Z.eqb_refl. cbn [negb andb]. unfold cinc, cget. cbn [aget aset].
    destruct (addr2_eqb_spec k k); [|congruence]. rewrite IH by lia. replace (c + 1 + Z.of_nat n) with (c + Z.of_nat (S n)) by lia. reflexivity. }
  destruct n as [|n]; [reflexivity|]. cbn [repeat fold_left]. rewrite E at 1. cbn [sa_stack rev app lbr_loop]. rewrite <- Ek, Z.eqb_refl. cbn [negb andb]. unfold cinc at 1, cget at 1. cbn [aget aset]. rewrite G by lia. replace (0 + 1 + Z.of_nat n) with (Z.of_nat (S n)) by lia. reflexivity.
Qed.
Theorem C70_counter_stat_refuted :
  exists W o bid bn files br ft stats ds, files_good W o bid files /\
    AggregateLbrData W o bid bn files = inl ((br, ft), stats, ds) /\ total snd br = 2 ^ 31 /\ ps_counters stats = 2 ^ 64 - 2 ^ 31.
Proof.
  assert (N : exists n, Z.of_nat n = 2 ^ 31) by (exists (Z.to_nat (2 ^ 31)); apply Z2Nat.id; lia). destruct N as [n N].
  set (l := repeat (Sample (Some 7) [(25, 22)]) n). assert (Hl : forall s, In s l -> s = Sample (Some 7) [(25, 22)]) by (intros s Hs; exact (repeat_spec _ _ _ Hs)).
  assert (C : AggregateLBR g_maps (im_segments g_image) l ([], []) = ([((25, 22), 2 ^ 31)], [])).
  { unfold l. rewrite (big_counts g_maps (im_segments g_image) 7 (25, 22)) by (vm_compute; reflexivity). rewrite N. destruct n; [discriminate|reflexivity]. }
  clearbody l. clear n N.
  exists (g_big_world l), (g_options 1), [97; 98], (im_segments g_image), [g_file 1].
  assert (L : profile_loop (g_big_world l) [97; 98] (ResolveMmapName (g_options 1)) (fun m d => AggregateLBR m (im_segments g_image) (pf_samples d)) 2 [g_file 1] pstats0 ([], []) =
    inl (PStats 1 1 0, ([((25, 22), 2 ^ 31)], []))).
  { cbn [profile_loop GetNext w_file g_big_world]. rewrite big_reader. cbn [profile_loop GetNext pf_samples g_big ps_mmaps ps_parsed ps_counters pstats0]. rewrite C. reflexivity. }
  pose proof (big_disassembly l) as D.
  exists [((25, 22), 2 ^ 31)], [], (PStats 1 1 (2 ^ 64 - 2 ^ 31)), (DStats (Stat 1 (2 ^ 31)) stat0 stat0). split.
  { constructor.
    - constructor; intros l0; reflexivity.
    - intros f d n h x Hf E. cbn in E. injection E as <-. cbn [pf_build_ids g_big In]. intros [H|[]]. injection H as <- <-. intros [<-|[]]. lia.
    - intros f d ns n n' Hf E L' Hn Hn'. cbn [w_file g_big_world] in E. injection E as <-.
      assert (X : forall n, In n ns -> n = [47; 97]).
      { inversion L' as [m E1 E2 E3|E1 E2 E3 E4|ms E1 E2 E3 E4 E5]; subst; [discriminate|discriminate|]. intros y Hy. apply E5 in Hy. destruct Hy as [[h [H _]] _]. destruct H as [H|[]]. congruence. }
      rewrite (X n Hn), (X n' Hn'). reflexivity.
    - intros f d Hf E. cbn [w_file g_big_world] in E. injection E as <-. split; [|intros s []]. intros s e Hs He. cbn [pf_samples g_big] in Hs. apply Hl in Hs. subst s. destruct He as [<-|[]]. unfold word, w64. cbn. lia. }
  split; [|split; reflexivity]. unfold AggregateLbrData. change (S (length [g_file 1])) with 2%nat. rewrite L. cbn [ps_mmaps ps_parsed ps_counters]. cbv zeta. cbn [Z.eqb]. change (w_counters (g_big_world l) [((25, 22), 2 ^ 31)]) with [((25, 22), 2 ^ 31)]. rewrite D. reflexivity.
Qed.
Print Assumptions C70_counter_stat_refuted.
