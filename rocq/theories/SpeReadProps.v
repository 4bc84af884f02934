(** * C71: the SPE sample reader, from perf profiles and binary to counts *)
From Coq Require Import Permutation Sorted.
From Verif Require Import Base ByteModel SymbolModel MMapModel MMapSpec MMapProps BinaryIdModel GenModel GenSpec GenProofs SpeRangeModel SpeRangeSpec SpeRangeProofs SpeRangeProps.
From Verif Require Import AddrModel SampleModel SampleProofs SpeReadModel SpeReadSpec SpeReadProofs.

(** ** The counters of a file *)
Lemma spe_range_good bn d m tk nt : counted bn (d, m) tk nt -> addresses_good bn d m -> (forall c, In c tk -> word2 (fst c)) ->
  SpeRangeSpec.good_counts tk nt 4 /\ forall t, is_target tk t -> inside t -> (4 | t).
Proof.
  intros [C1 C2] A WD. assert (E : forall from to c, In (from, to, c) tk -> exists s pid, In s (pf_spe d) /\ spe_counts m s = Some pid /\ from = RuntimeAddressToBinaryAddress m bn pid (sr_ip s) /\ to = RuntimeAddressToBinaryAddress m bn pid (sr_target s)).
  { intros from to c H. destruct (counts_entry same same_spec _ _ _ _ C1 H) as [E P]. unfold taken_samples in E. cbn [fst snd] in E. rewrite <- E in P. apply count_pos in P as [s [Hs P]]. exists s.
    destruct (spe_counts m s) as [pid|]; [|discriminate]. exists pid. apply andb_true_iff in P as [_ P]. destruct (same_spec (from, to) (RuntimeAddressToBinaryAddress m bn pid (sr_ip s), RuntimeAddressToBinaryAddress m bn pid (sr_target s))) as [Q|]; [|discriminate].
    injection Q as -> ->. auto. }
  assert (T4 : forall a, is_target tk a -> inside a -> (4 | a)).
  { intros a [from [c H]] I. destruct (E _ _ _ H) as [s [pid [Hs [Hp [-> ->]]]]]. destruct (A s pid Hs Hp) as [_ A2]. apply A2, I. }
  split; [|exact T4]. split; [|split; [|split; [|split; [lia|split; [exists 1024; lia|]]]]].
  - intros from to c H. split; [apply Z.lt_le_incl; apply (counts_entry same same_spec _ _ _ _ C1 H)|]. destruct (E _ _ _ H) as [s [pid [Hs [Hp [Ef Et]]]]]. destruct (A s pid Hs Hp) as [A1 A2]. rewrite <- Ef in A1. rewrite <- Et in A2.
    destruct (WD _ H) as [W1 W2]. cbn [fst snd] in W1, W2. unfold word, w64 in *. split; intros I; [specialize (A1 I); lia|destruct (A2 I); lia].
  - intros a c H. apply Z.lt_le_incl. apply (counts_entry Z.eqb Z.eqb_spec _ _ _ _ C2 H).
  - exact (cn_keys _ _ _ C2).
  - intros a b Ha Hb Ia Ib. apply Z.divide_sub_r; auto.
Qed.
Section File.
  Context (W : world) (R : spe_reader) (B : spe_binary) (f : name) (d : profile) (m : mmaps).
  Hypothesis RB : re_binary R = Some B.
  Hypothesis AR : sb_aarch64 B = true.
  Hypothesis IG : inputs_good W R (sb_build_id B) [f].
  Hypothesis FI : found_in W R (sb_build_id B) f d m.
  Hypothesis AG : addresses_good (sb_segments B) d m.
  Definition segs : list (Z * Z) := ReadLoadableExecSegmentInfo (IsKernelMode m) (sb_headers B).
  Definition offset (a : Z) : outcome Z := GetFileOffsetFromStaticVaddr segs (u64 a).
  Lemma file_run : exists tk nt, counted (sb_segments B) (d, m) tk nt /\ (SpeRangeSpec.good_counts tk nt 4 /\ forall t, is_target tk t -> inside t -> (4 | t)) /\ (forall c, In c tk -> 0 < snd c) /\ (forall c, In c nt -> 0 < snd c) /\
    total snd tk + total snd nt <= records (d, m) /\
    ((re_strategy R = kDisassembly /\ sb_disassembler B = None /\ GenerateAutofdoProfile W R f = Ok None) \/
     (~ (re_strategy R = kDisassembly /\ sb_disassembler B = None) /\ exists cf, knows_branches R B tk nt cf /\ GenerateAutofdoProfile W R f = obind (Convert cf offset 4 tk nt) (fun s => Ok (Some s)))).
  Proof.
    destruct FI as [EF EN]. assert (RM : CreatePerfDataReader W R (sb_build_id B) (Some d) = Some m).
    { apply reader_maps; [exact (ig_world _ _ _ _ IG)| | |exact EN]; [intros n h x; apply (ig_ids _ _ _ _ IG f d n h x (or_introl eq_refl) EF)|intros ns n n'; apply (ig_alike _ _ _ _ IG f d ns n n' (or_introl eq_refl) EF)]. }
    assert (SW : spe_words (pf_spe d)) by (exact (proj2 (ig_samples _ _ _ _ IG f d (or_introl eq_refl) EF))).
    destruct (counts_word m (sb_segments B) d SW) as [C [G1 [G2 T]]]. unfold GenerateAutofdoProfile. rewrite RB, AR. cbn [negb GetNext]. rewrite EF, RM.
    set (r := AggregateSpe m (sb_segments B) (pf_spe d) ([], [])) in *. clearbody r. destruct r as [tk nt]. cbn [fst snd] in *.
    pose proof (wg_counters _ (ig_world _ _ _ _ IG) tk) as P1. pose proof (wg_by_address _ (ig_world _ _ _ _ IG) nt) as P2.
    exists (w_counters W tk), (w_by_address W nt). set (tk' := w_counters W tk) in *. set (nt' := w_by_address W nt) in *. clearbody tk' nt'.
    assert (C' : counted (sb_segments B) (d, m) tk' nt') by (destruct C as [C1 C2]; split; [exact (counts_perm same _ _ _ P1 C1)|exact (counts_perm Z.eqb _ _ _ P2 C2)]).
    split; [exact C'|]. split; [apply (spe_range_good (sb_segments B) d m); [exact C'|exact AG|]; intros c Hc; apply G1; exact (Permutation_in _ P1 Hc)|].
    split; [intros c Hc; apply G1; exact (Permutation_in _ P1 Hc)|]. split; [intros c Hc; apply G2; exact (Permutation_in _ P2 Hc)|].
    split; [rewrite (total_perm _ _ _ P1), (total_perm _ _ _ P2); exact T|].
    unfold CreateBranchIdentifier, knows_branches. destruct (re_strategy R).
    - destruct (sb_disassembler B) as [dis|]; [|left; auto]. right. split; [intros [_ Q]; discriminate|]. exists (fun a => match dis (u64 a) with Some b => b | None => true end). split; [|reflexivity].
      intros a Ha. exists dis. split; [reflexivity|]. rewrite u64_small by exact Ha. destruct (dis a) as [[|]|]; split; congruence.
    - right. split; [intros [Q _]; discriminate|]. exists (fun a => existsb (Z.eqb (u64 a)) (map (fun e => fst (fst e)) tk ++ map fst nt)). split; [|reflexivity].
      intros a Ha. rewrite u64_small by exact Ha. rewrite existsb_exists. split.
      + intros [x [H E]]. assert (x = a) by lia. subst x. apply in_app_or in H as [H|H]; apply in_map_iff in H.
        * destruct H as [[[f0 t] c] [<- H]]. left. exists t, c. exact (Permutation_in _ (Permutation_sym P1) H).
        * destruct H as [[f0 c] [<- H]]. right. exists c. exact (Permutation_in _ (Permutation_sym P2) H).
      + intros H. exists a. split; [|apply Z.eqb_refl]. apply in_or_app. destruct H as [[t [c H]]|[c H]]; [left|right]; apply in_map_iff.
        * exists (a, t, c). split; [reflexivity|exact (Permutation_in _ P1 H)].
        * exists (a, c). split; [reflexivity|exact (Permutation_in _ P2 H)].
  Qed.
End File.

(** ** Aborts *)
Section Convert.
  Context (cf : Z -> bool) (segs : list (Z * Z)) (tk : list ((Z * Z) * Z)) (nt : list (Z * Z)).
  Hypothesis GC : SpeRangeSpec.good_counts tk nt 4.
  Hypothesis POS : forall c, In c tk -> 0 < snd c.
  Notation off := (fun a => GetFileOffsetFromStaticVaddr segs (u64 a)).
  Definition too_low : Prop := exists from to c, In (from, to, c) tk /\ inside to /\ (seg_low segs to \/ (inside from /\ seg_low segs from)).
  Lemma ranges_within : ((forall t, is_target tk t -> ~ inside t) /\ snd (ConvertBranchFrequencies cf (fun a => a) 4 tk nt) = []) \/
    exists a0 last, lowest_target tk a0 /\ highest_target tk last /\ 0 <= a0 /\ last + 4096 < 2 ^ 63 /\
      (forall x y, In (x, y) (map fst (snd (ConvertBranchFrequencies cf (fun a => a) 4 tk nt))) -> a0 <= x <= y /\ y < last + 4096) /\
      exists y, In (a0, y) (map fst (snd (ConvertBranchFrequencies cf (fun a => a) 4 tk nt))).
  Proof.
    destruct (targets_bounds tk) as [NT|[a0 [la [L H]]]]; [left; split; [exact NT|apply C59_no_target; exact NT]|]. right. exists a0, la. split; [exact L|]. split; [exact H|].
    destruct (C59_ranges cf (fun a => a) 4 tk nt a0 la GC L H) as [Rs [[_ HS] [[_ PR] EX]]]. rewrite Forall_forall in PR.
    destruct L as [[f0 [c0 L1]] [L2 L3]]. destruct H as [[f1 [c1 H1]] [H2 H3]]. destruct GC as [GT _]. destruct (GT _ _ _ L1) as [_ [_ B0]]. destruct (GT _ _ _ H1) as [_ [_ B1]]. specialize (B0 L2). specialize (B1 H2).
    split; [lia|]. split; [lia|]. split.
    - intros x y Hxy. apply HS in Hxy as [r [Hr [<- <-]]]. destruct (PR r Hr) as [_ [P1 [P2 [P3 _]]]]. lia.
    - assert (E0 : 0 < executions tk nt cf 4 a0 0).
      { cbn [executions]. rewrite Z.add_0_r. change (a0 + Z.of_nat 0 * 4) with (a0 + 0). rewrite Z.add_0_r. unfold branched_to. clear - L1 POS. induction tk as [|e l IH]; [destruct L1|]. cbn [sum_if].
        pose proof (POS e (or_introl eq_refl)). assert (0 <= sum_if (fun e => snd (fst e) =? a0) snd l).
        { rewrite sum_if_total. apply total_nonneg. intros x Hx. specialize (POS x (or_intror Hx)). destruct (_ =? _); lia. }
        destruct L1 as [->|L1]; [cbn [fst snd] in *; rewrite Z.eqb_refl; lia|]. specialize (IH (fun x Hx => POS x (or_intror Hx)) L1). destruct (_ =? _); lia. }
      assert (a0 <= la) by (apply H3; [exists f0, c0; exact L1|exact L2]).
      specialize (EX 0%nat). rewrite <- EX in E0 by lia. clear EX. assert (Q : exists r, In r Rs /\ covers r (a0 + Z.of_nat 0 * 4) = true).
      { clear - E0. induction Rs as [|r Rs IH]; cbn [sum_if] in E0; [lia|]. destruct (covers r (a0 + Z.of_nat 0 * 4)) eqn:E; [exists r; split; [left; reflexivity|exact E]|]. destruct IH as [r' [H1 H2]]; [lia|]. exists r'. split; [right; exact H1|exact H2]. }
      destruct Q as [r [Hr Q]]. destruct (PR r Hr) as [_ [P1 _]]. exists (r_last r). apply HS. exists r. split; [exact Hr|]. split; [|reflexivity]. unfold covers in Q. lia.
  Qed.
  Lemma branch_keys x y : In (x, y) (map fst (fst (ConvertBranchFrequencies cf (fun a => a) 4 tk nt))) <-> exists c, In (x, y, c) tk /\ inside x /\ inside y.
  Proof.
    destruct (C59_branches cf (fun a => a) 4 tk nt GC) as [_ HS]. destruct (HS x y) as [_ ->]. unfold inside_branch, inside. split.
    - intros [[[f t] c] [H [<- <-]]]. apply filter_In in H as [H Q]. exists c. unfold r_first, r_last. cbn [fst snd] in *. split; [exact H|]. lia.
    - intros [c [H [I1 I2]]]. exists (x, y, c). split; [|split; reflexivity]. apply filter_In. split; [exact H|]. cbn [fst snd]. lia.
  Qed.
  Lemma low_mono a b : a <= b -> seg_low segs b -> seg_low segs a.
  Proof. unfold seg_low. destruct segs as [|[so sv] l]; [auto|lia]. Qed.
  Lemma translated_low : (exists a, In a (translated (ConvertBranchFrequencies cf (fun a => a) 4 tk nt)) /\ 0 <= a < 2 ^ 63 /\ seg_low segs a) <-> too_low.
  Proof.
    pose proof ranges_within as RW. pose proof GC as GC'. destruct GC' as [GT _]. unfold translated. split.
    - intros [a [H [Ha L]]]. apply in_flat_map in H as [[[x y] v] [H Q]]. cbn [fst snd] in Q. apply in_app_or in H as [H|H]; apply (in_map fst) in H; cbn [fst] in H.
      + apply branch_keys in H as [c [H [I1 I2]]]. exists x, y, c. split; [exact H|]. split; [exact I2|]. destruct Q as [<-|[<-|[]]]; auto.
      + destruct RW as [[_ E]|[a0 [la [[[f0 [c0 L1]] [L2 L3]] [_ [_ [_ [RW _]]]]]]]]; [rewrite E in H; destruct H|]. specialize (RW _ _ H). exists f0, a0, c0. split; [exact L1|]. split; [exact L2|]. left. apply (low_mono _ a); [|exact L]. destruct Q as [<-|[<-|[]]]; lia.
    - intros [from [to [c [H [I L]]]]]. destruct (GT _ _ _ H) as [_ [G1 G2]]. specialize (G2 I). destruct L as [L|[I' L]].
      + destruct RW as [[E _]|[a0 [la [[[f0 [c0 L1]] [L2 L3]] [[_ [_ H3]] [B0 [_ [_ [y Hy]]]]]]]]].
        * destruct (E to (ex_intro _ from (ex_intro _ c H)) I).
        * apply in_map_iff in Hy as [[k v] [Ek Hy]]. cbn [fst] in Ek. subst k. exists a0. assert (a0 <= to) by (apply L3; [exists from, c; exact H|exact I]).
          split; [apply in_flat_map; exists (a0, y, v); split; [apply in_or_app; right; exact Hy|left; reflexivity]|]. split; [lia|exact (low_mono _ _ H0 L)].
      + specialize (G1 I'). exists from. assert (K : In (from, to) (map fst (fst (ConvertBranchFrequencies cf (fun a => a) 4 tk nt)))) by (apply branch_keys; eauto).
        apply in_map_iff in K as [[k v] [Ek K]]. cbn [fst] in Ek. subst k. split; [apply in_flat_map; exists (from, to, v); split; [apply in_or_app; left; exact K|left; reflexivity]|]. auto.
  Qed.
  Lemma translated_small a : In a (translated (ConvertBranchFrequencies cf (fun a => a) 4 tk nt)) -> 0 <= a < 2 ^ 63.
  Proof.
    pose proof ranges_within as RW. pose proof GC as GC'. destruct GC' as [GT _]. unfold translated. intros H. apply in_flat_map in H as [[[x y] v] [H Q]]. cbn [fst snd] in Q. apply in_app_or in H as [H|H]; apply (in_map fst) in H; cbn [fst] in H.
    - apply branch_keys in H as [c [H [I1 I2]]]. destruct (GT _ _ _ H) as [_ [G1 G2]]. specialize (G1 I1). specialize (G2 I2). destruct Q as [<-|[<-|[]]]; lia.
    - destruct RW as [[_ E]|[a0 [la [_ [_ [B0 [B1 [RW _]]]]]]]]; [rewrite E in H; destruct H|]. specialize (RW _ _ H). destruct Q as [<-|[<-|[]]]; lia.
  Qed.
  Lemma convert_aborts : (too_low /\ Convert cf off 4 tk nt = Abort) \/
    (~ too_low /\ Convert cf off 4 tk nt = Ok (ConvertBranchFrequencies cf (fun a => match off a with Ok x => x | _ => 0 end) 4 tk nt)).
  Proof.
    unfold Convert. destruct (forallb _ _) eqn:E.
    - right. split; [|reflexivity]. intros T. apply translated_low in T as [a [Ha [B L]]]. rewrite forallb_forall in E. specialize (E a Ha). cbv beta in E. rewrite u64_small in E by exact B.
      destruct (offset_cases segs a) as [[_ Q]|[Q _]]; [rewrite Q in E; discriminate|contradiction].
    - left. split; [|reflexivity]. apply translated_low. assert (X : exists a, In a (translated (ConvertBranchFrequencies cf (fun a => a) 4 tk nt)) /\ (match off a with Ok _ => true | _ => false end) = false).
      { clear - E. induction (translated _) as [|a l IH]; [discriminate|]. cbn [forallb] in E. apply andb_false_iff in E as [E|E]; [exists a; split; [left; reflexivity|exact E]|]. destruct (IH E) as [b [H1 H2]]. exists b. split; [right; exact H1|exact H2]. }
      destruct X as [a [Ha Q]]. pose proof (translated_small a Ha) as B. exists a. split; [exact Ha|]. split; [exact B|]. cbv beta in Q. rewrite u64_small in Q by exact B.
      destruct (offset_cases segs a) as [[L _]|[_ [x L]]]; [exact L|rewrite L in Q; discriminate].
  Qed.
End Convert.

(** ** One executable segment *)
Lemma sum_if_ext {A} (p q : A -> bool) (w : A -> Z) l : (forall x, In x l -> p x = q x) -> sum_if p w l = sum_if q w l.
Proof. intros H. rewrite !sum_if_total. apply total_ext. intros x Hx. rewrite (H x Hx). reflexivity. Qed.
Lemma sum_if_filter {A} (p q : A -> bool) (w : A -> Z) l : sum_if p w (filter q l) = sum_if (fun x => q x && p x) w l.
Proof. induction l as [|x l IH]; cbn [filter sum_if]; [reflexivity|]. destruct (q x); cbn [sum_if andb]; lia. Qed.
Section Segment.
  Context (cf : Z -> bool) (so sv : Z) (tk : list ((Z * Z) * Z)) (nt : list (Z * Z)).
  Hypothesis GC : SpeRangeSpec.good_counts tk nt 4.
  Hypothesis T4 : forall t, is_target tk t -> inside t -> (4 | t).
  Hypothesis POS : forall c, In c tk -> 0 < snd c.
  Hypothesis POSN : forall c, In c nt -> 0 < snd c.
  Hypothesis HSO : 0 <= so < 2 ^ 63.
  Hypothesis HSV : 0 <= sv < 2 ^ 63.
  Hypothesis HIGH : ~ too_low [(so, sv)] tk.
  Notation N := (total snd tk + total snd nt).
  Notation out := (ConvertBranchFrequencies cf (fun a => match GetFileOffsetFromStaticVaddr [(so, sv)] (u64 a) with Ok x => x | _ => 0 end) 4 tk nt).
  Lemma off_is a : sv <= a < 2 ^ 63 -> match GetFileOffsetFromStaticVaddr [(so, sv)] (u64 a) with Ok x => x | _ => 0 end = so + a - sv.
  Proof. intros H. rewrite (offset_one so sv a HSO HSV H). reflexivity. Qed.
  Lemma target_high from to c : In (from, to, c) tk -> inside to -> sv <= to < 2 ^ 63 - 4096 /\ (inside from -> sv <= from < 2 ^ 63).
  Proof.
    intros H I. destruct GC as [GT _]. destruct (GT _ _ _ H) as [_ [G1 G2]]. specialize (G2 I). split.
    - destruct (Z_lt_le_dec to sv) as [L|L]; [|lia]. exfalso. apply HIGH. exists from, to, c. split; [exact H|]. split; [exact I|]. left. exact L.
    - intros I'. specialize (G1 I'). destruct (Z_lt_le_dec from sv) as [L|L]; [|lia]. exfalso. apply HIGH. exists from, to, c. split; [exact H|]. split; [exact I|]. right. split; [exact I'|exact L].
  Qed.
  Lemma seg_ranges :
    bounded_map N (snd out) /\
    forall a, (4 | a) -> exists n, executed_times tk nt cf a n /\
      total (fun e => if (fst (fst e) <=? so + a - sv) && (so + a - sv <=? snd (fst e)) then snd e else 0) (snd out) = n.
  Proof.
    assert (NN : forall e, In e nt -> 0 <= snd e) by (intros e He; specialize (POSN e He); lia). assert (NT : forall e, In e tk -> 0 <= snd e) by (intros e He; specialize (POS e He); lia).
    destruct (targets_bounds tk) as [NO|[a0 [la [L H]]]].
    { rewrite C59_no_target by exact NO. split; [split; [constructor|intros e []]|]. intros a Ha. exists 0. split; [left; auto|reflexivity]. }
    set (off := fun a => match GetFileOffsetFromStaticVaddr [(so, sv)] (u64 a) with Ok x => x | _ => 0 end).
    destruct (C59_ranges cf off 4 tk nt a0 la GC L H) as [Rs [HS [[_ PR] EX]]]. rewrite Forall_forall in PR.
    assert (LL := L). assert (HH := H). destruct L as [[f0 [c0 L1]] [L2 L3]]. destruct H as [[f1 [c1 H1]] [H2 H3]]. pose proof (target_high _ _ _ L1 L2) as [B0 _]. pose proof (target_high _ _ _ H1 H2) as [B1 _].
    assert (D0 : (4 | a0)) by (apply T4; [exists f0, c0; exact L1|exact L2]).
    assert (OF : forall r, In r Rs -> off (r_first r) = so + r_first r - sv /\ off (r_last r) = so + r_last r - sv).
    { intros r Hr. destruct (PR r Hr) as [_ [P1 [P2 [P3 _]]]]. unfold off. split; apply off_is; lia. }
    assert (WN : forall r, In r Rs -> 0 <= r_weight r) by (intros r Hr; destruct (PR r Hr); lia).
    split.
    - split; [exact (proj1 HS)|]. intros [[x y] v] He. cbn [snd]. destruct HS as [ND HS]. destruct (HS x y) as [V K]. rewrite (V v He). split.
      + rewrite sum_if_total. apply total_nonneg. intros r Hr. specialize (WN r Hr). destruct (_ && _); lia.
      + assert (IK : In (x, y) (map fst (snd (ConvertBranchFrequencies cf off 4 tk nt)))) by (apply in_map_iff; exists (x, y, v); auto).
        apply K in IK as [r0 [Hr0 [E1 E2]]]. destruct (PR r0 Hr0) as [_ [P1 [P2 [P3 [P4 _]]]]]. destruct P4 as [i Ei]. assert (0 <= i) by lia.
        etransitivity; [apply (sum_if_le _ (fun r => covers r (r_first r0))); [exact WN|]|].
        * intros r Hr Q. destruct (OF r Hr) as [O1 O2]. destruct (OF r0 Hr0) as [O3 O4]. destruct (PR r Hr) as [_ [_ [Q2 _]]]. unfold covers. lia.
        * specialize (EX (Z.to_nat i)). rewrite Z2Nat.id in EX by lia. replace (a0 + i * 4) with (r_first r0) in EX by lia. rewrite EX by lia.
          destruct (executions_bound tk nt cf a0 NT NN (Z.to_nat i)) as [_ Q]. etransitivity; [exact Q|]. assert (sum_if (fun e => snd (fst e) <=? a0 + Z.of_nat (Z.to_nat i) * 4) snd tk <= total snd tk); [|lia].
          rewrite <- sum_if_true. apply sum_if_le; [exact NT|reflexivity].
    - intros a Ha. exists (total (fun e => if (fst (fst e) <=? so + a - sv) && (so + a - sv <=? snd (fst e)) then snd e else 0) (snd (ConvertBranchFrequencies cf off 4 tk nt))). split; [|reflexivity].
      rewrite (holds_sums_total off _ Rs (fun x y => (x <=? so + a - sv) && (so + a - sv <=? y)) HS). rewrite (sum_if_ext _ (fun r => covers r a)).
      2:{ intros r Hr. destruct (OF r Hr) as [-> ->]. unfold covers. destruct (Z.leb_spec (r_first r) a), (Z.leb_spec (so + r_first r - sv) (so + a - sv)), (Z.leb_spec a (r_last r)), (Z.leb_spec (so + a - sv) (so + r_last r - sv)); cbn [andb]; lia. }
      right. exists a0, la. split; [exact LL|]. split; [exact HH|]. destruct (Z_lt_le_dec a a0) as [LT|GE].
      + right. split; [lia|]. apply sum_if_none. intros r Hr. destruct (PR r Hr) as [_ [P1 _]]. unfold covers. lia.
      + destruct (Z_lt_le_dec a (la + 4096)) as [LT|GE'].
        * left. split; [lia|]. destruct Ha as [p ->]. destruct D0 as [q ->]. replace (p * 4 - q * 4) with ((p - q) * 4) by lia. rewrite Z.div_mul by lia. rewrite <- EX; rewrite Z2Nat.id by lia; [|lia].
          apply sum_if_ext. intros r _. f_equal. lia.
        * right. split; [lia|]. apply sum_if_none. intros r Hr. destruct (PR r Hr) as [_ [_ [_ [P3 _]]]]. unfold covers. lia.
  Qed.
  Lemma seg_branches :
    bounded_map N (fst out) /\
    (forall k v, In (k, v) (fst out) -> exists from to, k = (so + from - sv, so + to - sv) /\ sv <= from < 2 ^ 63 /\ sv <= to < 2 ^ 63 /\ 0 < count_in same tk (from, to)) /\
    forall from to, sv <= from < 2 ^ 63 -> sv <= to < 2 ^ 63 -> count_in same (fst out) (so + from - sv, so + to - sv) = count_in same tk (from, to).
  Proof.
    assert (NN : forall e, In e nt -> 0 <= snd e) by (intros e He; specialize (POSN e He); lia). assert (NT : forall e, In e tk -> 0 <= snd e) by (intros e He; specialize (POS e He); lia).
    set (off := fun a => match GetFileOffsetFromStaticVaddr [(so, sv)] (u64 a) with Ok x => x | _ => 0 end).
    pose proof (C59_branches cf off 4 tk nt GC) as HS.
    assert (OF : forall r, In r (filter inside_branch tk) -> (off (r_first r) = so + r_first r - sv /\ sv <= r_first r < 2 ^ 63) /\ (off (r_last r) = so + r_last r - sv /\ sv <= r_last r < 2 ^ 63)).
    { intros [[f t] c] Hr. apply filter_In in Hr as [Hr Q]. unfold inside_branch in Q. cbn [fst snd] in Q. unfold r_first, r_last. cbn [fst snd]. assert (IT : inside t) by (unfold inside; lia). assert (IF : inside f) by (unfold inside; lia).
      destruct (target_high _ _ _ Hr IT) as [B1 B2]. specialize (B2 IF). unfold off. rewrite !off_is by lia. lia. }
    assert (CI : forall k, count_in same tk k = sum_if (fun e => same (fst e) k) snd tk) by (intros k; unfold count_in; rewrite sum_if_total; reflexivity).
    split; [|split].
    - split; [exact (proj1 HS)|]. intros [[x y] v] He. cbn [snd]. destruct HS as [_ HS]. destruct (HS x y) as [V _]. rewrite (V v He). split.
      + rewrite sum_if_total. apply total_nonneg. intros r Hr. apply filter_In in Hr as [Hr _]. specialize (NT r Hr). unfold r_weight. destruct (_ && _); lia.
      + rewrite sum_if_filter. assert (sum_if (fun e => inside_branch e && ((off (r_first e) =? x) && (off (r_last e) =? y))) r_weight tk <= total snd tk); [|pose proof (total_nonneg snd nt NN); lia].
        rewrite <- sum_if_true. apply sum_if_le; [exact NT|reflexivity].
    - intros [x y] v Hv. destruct HS as [_ HS]. destruct (HS x y) as [_ K]. assert (IK : In (x, y) (map fst (fst (ConvertBranchFrequencies cf off 4 tk nt)))) by (apply in_map_iff; exists (x, y, v); auto).
      apply K in IK as [r [Hr [<- <-]]]. destruct (OF r Hr) as [[-> B1] [-> B2]]. exists (r_first r), (r_last r). split; [reflexivity|]. split; [exact B1|]. split; [exact B2|].
      rewrite CI. apply filter_In in Hr as [Hr _]. pose proof (POS r Hr). rewrite sum_if_total. clear - Hr POS H. destruct r as [[f t] c]. unfold r_first, r_last. cbn [fst snd] in *.
      induction tk as [|e l IH]; [destruct Hr|]. cbn [total]. assert (0 <= total (fun x => if same (fst x) (f, t) then snd x else 0) l) by (apply total_nonneg; intros z Hz; specialize (POS z (or_intror Hz)); destruct (same _ _); lia).
      destruct Hr as [->|Hr]; [cbn [fst snd]; destruct (same_spec (f, t) (f, t)); [lia|congruence]|]. specialize (IH (fun z Hz => POS z (or_intror Hz)) Hr). pose proof (POS e (or_introl eq_refl)). destruct (same _ _); lia.
    - intros from to Hf Ht. unfold count_in at 1. rewrite (total_ext _ (fun e => if (fun x y => same (x, y) (so + from - sv, so + to - sv)) (fst (fst e)) (snd (fst e)) then snd e else 0)) by (intros [[x y] v] _; reflexivity).
      rewrite (holds_sums_total off _ _ (fun x y => same (x, y) (so + from - sv, so + to - sv)) HS). rewrite (sum_if_ext _ (fun r => same (fst r) (from, to))).
      2:{ intros r Hr. destruct (OF r Hr) as [[-> B1] [-> B2]]. destruct r as [[f t] c]. unfold r_first, r_last. cbn [fst snd] in *. destruct (same_spec (f, t) (from, to)) as [E|NE].
          - injection E as -> ->. destruct (same_spec (so + from - sv, so + to - sv) (so + from - sv, so + to - sv)); [reflexivity|congruence].
          - match goal with |- same ?u ?w = _ => destruct (same_spec u w) as [E|_] end; [|reflexivity]. exfalso. apply NE. injection E as E1 E2. f_equal; lia. }
      rewrite sum_if_filter, CI. apply sum_if_ext. intros [[f t] c] Hr. cbn [fst]. destruct (same_spec (f, t) (from, to)) as [E|]; [|rewrite andb_false_r; reflexivity]. injection E as -> ->.
      unfold inside_branch. cbn [fst snd]. destruct (Z.eqb_spec from (2 ^ 64 - 1)); [lia|]. destruct (Z.eqb_spec to (2 ^ 64 - 1)); [lia|reflexivity].
  Qed.
End Segment.

(** ** Theorems *)
(** The maps of the binary in a profile are found under the names listed for its
    build id, or without build id under the names that match. *)
Theorem C71_maps W R B f d m : inputs_good W R (sb_build_id B) [f] -> w_file W f = Some (Some d) ->
  (CreatePerfDataReader W R (sb_build_id B) (Some d) = Some m <-> found_in W R (sb_build_id B) f d m).
Proof.
  intros IG EF. rewrite reader_maps; [|exact (ig_world _ _ _ _ IG)|intros n h x; apply (ig_ids _ _ _ _ IG f d n h x (or_introl eq_refl) EF)|intros ns n n'; apply (ig_alike _ _ _ _ IG f d ns n n' (or_introl eq_refl) EF)].
  unfold found_in. split; [auto|intros [_ H]; exact H].
Qed.
Print Assumptions C71_maps.

Lemma good_one W R bid files f : inputs_good W R bid files -> In f files -> inputs_good W R bid [f].
Proof.
  intros [G1 G2 G3 G4] H. constructor; [exact G1| | |].
  - intros g d n h x [<-|[]]; apply (G2 f); exact H.
  - intros g d [<-|[]]; apply (G3 f); exact H.
  - intros g d ns n n' [<-|[]]; apply (G4 f); exact H.
Qed.
(** Append succeeds exactly if the binary can be read and is an AArch64 binary,
    the binary is found in the profile, and there is a disassembler if it is to
    be used; otherwise nothing changes.  (It may abort: C71_aborts.) *)
Theorem C71_result W R f s s' b : (forall B, re_binary R = Some B -> inputs_good W R (sb_build_id B) [f]) ->
  Append W R s f = Ok (s', b) ->
  (b = true <-> exists B, re_binary R = Some B /\ sb_aarch64 B = true /\ (exists d m, found_in W R (sb_build_id B) f d m) /\ ~ (re_strategy R = kDisassembly /\ sb_disassembler B = None)) /\
  (b = false -> s' = s).
Proof.
  intros IG. unfold Append, GenerateAutofdoProfile. destruct (re_binary R) as [B|]; [|cbn [obind]; intros E; injection E as <- <-; split; [split; [discriminate|intros [B [Q _]]; discriminate]|reflexivity]].
  specialize (IG B eq_refl). destruct (sb_aarch64 B) eqn:EA; cbn [negb]; [|cbn [obind]; intros E; injection E as <- <-; split; [split; [discriminate|intros [B' [Q [Q' _]]]; congruence]|reflexivity]].
  cbn [GetNext]. destruct (w_file W f) as [c|] eqn:EF; [|cbn [obind]; intros E; injection E as <- <-; split; [split; [discriminate|intros [B' [Q [_ [[d [m [Q' _]]] _]]]]; congruence]|reflexivity]].
  destruct c as [d|]; [|cbn [CreatePerfDataReader obind]; intros E; injection E as <- <-; split; [split; [discriminate|intros [B' [Q [_ [[d [m [Q' _]]] _]]]]; congruence]|reflexivity]].
  destruct (CreatePerfDataReader W R (sb_build_id B) (Some d)) as [m|] eqn:EM.
  - apply (C71_maps W R B f d m IG EF) in EM. destruct (AggregateSpe m (sb_segments B) (pf_spe d) ([], [])) as [tk nt].
    destruct (CreateBranchIdentifier (re_strategy R) B tk nt) as [cf|] eqn:EC.
    + destruct (Convert _ _ _ _ _) as [x| |]; cbn [obind]; [|discriminate|discriminate]. intros E. injection E as <- <-. split; [|discriminate]. split; [|reflexivity]. intros _. exists B. split; [reflexivity|]. split; [exact EA|]. split; [eauto|].
      intros [Q1 Q2]. unfold CreateBranchIdentifier in EC. rewrite Q1, Q2 in EC. discriminate.
    + cbn [obind]. intros E. injection E as <- <-. split; [|reflexivity]. split; [discriminate|]. intros [B' [Q [_ [_ Q2]]]]. injection Q as <-. exfalso. apply Q2. unfold CreateBranchIdentifier in EC. destruct (re_strategy R); [|discriminate]. destruct (sb_disassembler B); [discriminate|auto].
  - cbn [obind]. intros E. injection E as <- <-. split; [|reflexivity]. split; [discriminate|]. intros [B' [Q [_ [[d' [m FI]] _]]]]. injection Q as <-. assert (d' = d) by (destruct FI; congruence). subst d'.
    apply (C71_maps W R B f d m IG EF) in FI. congruence.
Qed.
Print Assumptions C71_result.

(** The run aborts exactly if a branch into the binary is recorded whose target,
    or source in the binary, is below the first executable segment. *)
Theorem C71_aborts W R B f d m s : re_binary R = Some B -> sb_aarch64 B = true -> inputs_good W R (sb_build_id B) [f] -> found_in W R (sb_build_id B) f d m -> addresses_good (sb_segments B) d m ->
  ~ (re_strategy R = kDisassembly /\ sb_disassembler B = None) ->
  let low a := match ReadLoadableExecSegmentInfo (IsKernelMode m) (sb_headers B) with [] => True | (_, vaddr) :: _ => a < vaddr end in
  (Append W R s f = Abort <-> exists from to, 0 < taken_samples (sb_segments B) (from, to) (d, m) /\ inside to /\ (low to \/ (inside from /\ low from))) /\
  Append W R s f <> UB.
Proof.
  intros RB AR IG FI AG ST low. destruct (file_run W R B f d m RB AR IG FI AG) as [tk [nt [[C1 C2] [[GC T4] [P1 [P2 [_ [[S1 [S2 _]]|[_ [cf [_ E]]]]]]]]]]]; [exfalso; auto|].
  assert (TL : too_low (segs B m) tk <-> exists from to, 0 < taken_samples (sb_segments B) (from, to) (d, m) /\ inside to /\ (low to \/ (inside from /\ low from))).
  { unfold too_low, seg_low, segs. fold low. split.
    - intros [from [to [c [H Q]]]]. exists from, to. destruct (counts_entry same same_spec _ _ _ _ C1 H) as [-> Pc]. split; [exact Pc|exact Q].
    - intros [from [to [H Q]]]. exists from, to, (taken_samples (sb_segments B) (from, to) (d, m)). split; [|exact Q]. apply (counts_conv same same_spec _ _ _ C1). lia. }
  unfold Append. rewrite E. unfold offset. destruct (convert_aborts cf (segs B m) tk nt GC P1) as [[L ->]|[L ->]]; cbn [obind].
  - split; [|discriminate]. split; [intros _; apply TL, L|reflexivity].
  - split; [|discriminate]. split; [discriminate|]. intros Q. exfalso. apply L, TL, Q.
Qed.
Print Assumptions C71_aborts.

(** Any number of files. *)
Section Files.
  Context (W : world) (R : spe_reader) (B : spe_binary) (so sv : Z).
  Hypothesis RB : re_binary R = Some B.
  Notation bn := (sb_segments B).
  Definition file_good (f : name) : Prop := forall d m, found_in W R (sb_build_id B) f d m -> addresses_good bn d m /\ one_segment B (IsKernelMode m) so sv.
  Lemma appends_ok files : inputs_good W R (sb_build_id B) files -> (forall f, In f files -> file_good f) ->
    forall s st n, Appends W R s files = Ok (st, true) -> bounded_map n (sa_range s) -> bounded_map n (sa_branch s) -> 0 <= n ->
    exists us, Forall2 (fun f u => found_in W R (sb_build_id B) f (fst u) (snd u)) files us /\
      (n + total records us < 2 ^ 64 ->
       (forall k v, In (k, v) (sa_branch st) -> In k (map fst (sa_branch s)) \/ exists from to, k = (so + from - sv, so + to - sv) /\ sv <= from < 2 ^ 63 /\ sv <= to < 2 ^ 63 /\ 0 < total (taken_samples bn (from, to)) us) /\
       (forall from to, sv <= from < 2 ^ 63 -> sv <= to < 2 ^ 63 -> branch_count st (so + from - sv, so + to - sv) = branch_count s (so + from - sv, so + to - sv) + total (taken_samples bn (from, to)) us) /\
       (forall a, (4 | a) -> exists ns, Forall2 (file_executes W R B a) files ns /\ covering st (so + a - sv) = covering s (so + a - sv) + total (fun x => x) ns)).
  Proof.
    induction files as [|f files IH]; intros IG FG s st n E M1 M2 N0; cbn [Appends] in E.
    { injection E as <-. exists []. split; [constructor|]. intros _. cbn [total]. split; [intros k v H; left; apply in_map_iff; exists (k, v); auto|]. split; [intros; lia|]. intros a _. exists []. split; [constructor|]. cbn [total]. lia. }
    destruct (Append W R s f) as [[s1 b]| |] eqn:EA; cbn [obind fst snd] in E; [|discriminate|discriminate]. destruct b; [|discriminate].
    assert (IG1 : inputs_good W R (sb_build_id B) [f]) by (apply (good_one _ _ _ _ _ IG); left; reflexivity).
    assert (IG2 : inputs_good W R (sb_build_id B) files).
    { destruct IG as [G1 G2 G3 G4]. constructor; [exact G1| | |].
      - intros g d0 x h y Hg; apply (G2 g); right; exact Hg. - intros g d0 Hg; apply (G3 g); right; exact Hg. - intros g d0 ns x x' Hg; apply (G4 g); right; exact Hg. }
    destruct (C71_result W R f s s1 true) as [[RT _] _]; [intros B' Q; assert (B' = B) by congruence; subst B'; exact IG1|exact EA|]. destruct (RT eq_refl) as [B' [Q [AR [[d [m FI]] ST]]]]. assert (B' = B) by congruence. subst B'. clear Q RT.
    destruct (FG f (or_introl eq_refl) d m FI) as [AG [SG [HSO HSV]]].
    destruct (file_run W R B f d m RB AR IG1 FI AG) as [tk [nt [[C1 C2] [[GC T4] [P1 [P2 [TT [[S1 [S2 _]]|[_ [cf [KB EG]]]]]]]]]]]; [exfalso; auto|].
    unfold Append in EA. rewrite EG in EA. unfold offset in EA. destruct (convert_aborts cf (segs B m) tk nt GC P1) as [[L E']|[L E']]; rewrite E' in EA; cbn [obind] in EA; [discriminate|]. injection EA as <-. clear E' EG.
    unfold segs in L, E. rewrite SG in L, E.
    destruct (seg_ranges cf so sv tk nt GC T4 P1 P2 HSO HSV L) as [BR CR]. destruct (seg_branches cf so sv tk nt GC T4 P1 P2 HSO HSV L) as [BB [KB' CB]].
    set (out := ConvertBranchFrequencies _ _ _ _ _) in *. clearbody out.
    set (q := records (d, m)) in *. assert (Q0 : 0 <= q) by (unfold q, records, zlen; lia).
    assert (WK : forall (l : list ((Z * Z) * Z)), bounded_map (total snd tk + total snd nt) l -> bounded_map q l) by (intros l [Y1 Y2]; split; [exact Y1|]; intros e He; specialize (Y2 e He); lia).
    apply WK in BR. apply WK in BB.
    destruct (Z_lt_le_dec (n + q) (2 ^ 64)) as [LT|GE].
    - destruct (madd_all_total SampleModel.pair_eqb SampleProofs.pair_eqb_spec (snd out) (sa_range s) n q M1 BR LT N0 Q0) as [X1 X2].
      destruct (madd_all_total SampleModel.pair_eqb SampleProofs.pair_eqb_spec (fst out) (sa_branch s) n q M2 BB LT N0 Q0) as [Y1 Y2].
      destruct (IH IG2 (fun g Hg => FG g (or_intror Hg)) _ st (n + q) E X1 Y1 ltac:(lia)) as [us [F2 H]]. exists ((d, m) :: us). split; [constructor; [exact FI|exact F2]|]. intros LT'. cbn [total] in LT'. fold q in LT'.
      destruct (H ltac:(lia)) as [H1 [H2 H3]]. clear H IH. cbn [sa_range sa_branch AddBranchesAndRanges] in *.
      assert (TS : forall k, count_in same tk k = taken_samples bn k (d, m)) by (intros k; apply (cn_count _ _ _ C1)).
      assert (TN : forall k l, 0 <= total (taken_samples bn k) l) by (intros k l; apply total_nonneg; intros u _; unfold taken_samples, count, zlen; lia).
      split; [|split].
      + intros k v Hk. destruct (H1 k v Hk) as [Hk'|[from [to [-> [B1 [B2 P]]]]]].
        * apply (keys_madd_all SampleModel.pair_eqb SampleProofs.pair_eqb_spec) in Hk' as [Hk'|Hk']; [left; exact Hk'|]. right. apply in_map_iff in Hk' as [[k' v'] [Ek Hk']]. cbn [fst] in Ek. subst k'.
          destruct (KB' k v' Hk') as [from [to [-> [B1 [B2 P]]]]]. exists from, to. split; [reflexivity|]. split; [exact B1|]. split; [exact B2|]. cbn [total]. rewrite TS in P. specialize (TN (from, to) us). lia.
        * right. exists from, to. split; [reflexivity|]. split; [exact B1|]. split; [exact B2|]. cbn [total]. pose proof (TN (from, to) [(d, m)]) as TN'. cbn [total] in TN'. lia.
      + intros from to Hf Ht. rewrite (H2 from to Hf Ht). cbn [total]. unfold branch_count. cbn [sa_branch AddBranchesAndRanges]. unfold count_in at 1.
        rewrite (Y2 (fun k => same k (so + from - sv, so + to - sv))). unfold count_in at 1. specialize (CB from to Hf Ht). unfold count_in at 1 in CB. rewrite CB, TS. lia.
      + intros a Ha. destruct (H3 a Ha) as [ns [F3 E3]]. destruct (CR a Ha) as [x [Ex Ec]]. exists (x :: ns). split.
        * constructor; [|exact F3]. exists d, m, tk, nt, cf. split; [exact FI|]. split; [split; assumption|]. split; [exact KB|exact Ex].
        * rewrite E3. cbn [total]. unfold covering. cbn [sa_range AddBranchesAndRanges]. rewrite (X2 (fun k => (fst k <=? so + a - sv) && (so + a - sv <=? snd k))), Ec. lia.
    - assert (FF : forall files s st, inputs_good W R (sb_build_id B) files -> Appends W R s files = Ok (st, true) -> exists us, Forall2 (fun f u => found_in W R (sb_build_id B) f (fst u) (snd u)) files us).
      { clear - RB. induction files as [|g files IH]; intros s st IG E; [exists []; constructor|]. cbn [Appends] in E. destruct (Append W R s g) as [[s1 b]| |] eqn:EA; cbn [obind fst snd] in E; [|discriminate|discriminate]. destruct b; [|discriminate].
        destruct (C71_result W R g s s1 true) as [[RT _] _]; [intros B' Q; assert (B' = B) by congruence; subst B'; apply (good_one _ _ _ _ _ IG); left; reflexivity|exact EA|]. destruct (RT eq_refl) as [B' [Q [AR [[d [m FI]] ST]]]]. assert (B' = B) by congruence. subst B'.
        assert (IG2 : inputs_good W R (sb_build_id B) files).
        { destruct IG as [G1 G2 G3 G4]. constructor; [exact G1| | |].
          - intros g' d0 x h y Hg; apply (G2 g'); right; exact Hg. - intros g' d0 Hg; apply (G3 g'); right; exact Hg. - intros g' d0 ns x x' Hg; apply (G4 g'); right; exact Hg. }
        destruct (IH _ _ IG2 E) as [us F]. exists ((d, m) :: us). constructor; [exact FI|exact F]. }
      destruct (FF _ _ _ IG2 E) as [us F2]. exists ((d, m) :: us). split; [constructor; [exact FI|exact F2]|]. intros LT. exfalso. cbn [total] in LT. fold q in LT. pose proof (total_nonneg records us (fun u _ => Nat2Z.is_nonneg _)). lia.
  Qed.
End Files.

(** The counts of the ranges over an instruction add up to how often it was
    executed according to the files; [so] and [sv] are file offset and address of
    the executable segment. *)
Theorem C71_executions W R B so sv files st us a : re_binary R = Some B -> inputs_good W R (sb_build_id B) files ->
  (forall f d m, In f files -> found_in W R (sb_build_id B) f d m -> addresses_good (sb_segments B) d m /\ one_segment B (IsKernelMode m) so sv) ->
  Appends W R samples0 files = Ok (st, true) ->
  Forall2 (fun f u => found_in W R (sb_build_id B) f (fst u) (snd u)) files us -> total records us < 2 ^ 64 ->
  (4 | a) -> exists ns, Forall2 (file_executes W R B a) files ns /\ covering st (so + a - sv) = total (fun x => x) ns.
Proof.
  intros RB IG FG E FU LT Ha. destruct (appends_ok W R B so sv RB files IG (fun f Hf d m => FG f d m Hf) samples0 st 0 E) as [us' [FU' H]]; [split; [constructor|intros e []]|split; [constructor|intros e []]|lia|].
  assert (LT' : total records us' < 2 ^ 64).
  { assert (Q : total records us' = total records us); [|lia]. clear - FU FU'. revert us FU. induction FU' as [|f [d m] files us' [F _] _ IH]; intros us FU; inversion FU as [|? [d' m'] ? us2 [F' _] FU2]; subst; [reflexivity|]. cbn [total]. rewrite (IH us2 FU2). f_equal.
    cbn [fst snd] in *. unfold records. cbn [fst]. assert (d' = d) by congruence. subst d'. reflexivity. }
  destruct (H ltac:(lia)) as [_ [_ H3]]. destruct (H3 a Ha) as [ns [F E3]]. exists ns. split; [exact F|]. rewrite E3. reflexivity.
Qed.
Print Assumptions C71_executions.
(** Every branch inside the binary is counted as often as the files say, at the
    file offsets of its ends, and nothing else is counted. *)
Theorem C71_branches W R B so sv files st : re_binary R = Some B -> inputs_good W R (sb_build_id B) files ->
  (forall f d m, In f files -> found_in W R (sb_build_id B) f d m -> addresses_good (sb_segments B) d m /\ one_segment B (IsKernelMode m) so sv) ->
  Appends W R samples0 files = Ok (st, true) ->
  exists us, Forall2 (fun f u => found_in W R (sb_build_id B) f (fst u) (snd u)) files us /\
    (total records us < 2 ^ 64 ->
     (forall from to, sv <= from < 2 ^ 63 -> sv <= to < 2 ^ 63 -> branch_count st (so + from - sv, so + to - sv) = total (taken_samples (sb_segments B) (from, to)) us) /\
     (forall k v, In (k, v) (sa_branch st) -> exists from to, k = (so + from - sv, so + to - sv) /\ sv <= from < 2 ^ 63 /\ sv <= to < 2 ^ 63 /\ 0 < total (taken_samples (sb_segments B) (from, to)) us)).
Proof.
  intros RB IG FG E. destruct (appends_ok W R B so sv RB files IG (fun f Hf d m => FG f d m Hf) samples0 st 0 E) as [us [FU H]]; [split; [constructor|intros e []]|split; [constructor|intros e []]|lia|].
  exists us. split; [exact FU|]. intros LT. destruct (H ltac:(lia)) as [H1 [H2 _]]. split.
  - intros from to Hf Ht. rewrite (H2 from to Hf Ht). reflexivity.
  - intros k v Hk. destruct (H1 k v Hk) as [[]|Q]. exact Q.
Qed.
Print Assumptions C71_branches.

(** ** A case *)
Definition s_event : mmap_event := MMapEvent (Some 7) (Some 4096) (Some 65536) (Some 4096) (Some [47; 97]).
Definition s_record (nt : bool) (ip target : Z) : spe_record := SpeRecord 7 true true true nt ip target.
(* a loop 0x1100-0x1108 entered from outside and run three times; it is left by
   the branch at its end *)
Definition s_profile : profile :=
  Profile [s_event] [(Some [47; 97], Some [171])] [] [s_record false 64 0x1100; s_record false 0x1108 0x1100; s_record false 0x1108 0x1100; s_record true 0x1108 0x1100].
Definition s_world : world := World (fun n => match n with 47 :: _ => true | _ => false end) (fun n => n) (fun l => rev l) (fun l => rev l) (fun l => rev l)
  (fun f => match f with [49] => Some (Some s_profile) | _ => None end) None.
Definition s_binary (bid : name) : spe_binary := SpeBinary true bid (MMapModel.Binary true [Segment 4096 69632 65536]) [{| ph_load := true; ph_exec := false; ph_offset := 0; ph_vaddr := 65536 |}; {| ph_load := true; ph_exec := true; ph_offset := 4096; ph_vaddr := 69632 |}] None.
Definition s_reader (bid : name) : spe_reader := SpeReader kSampling (fun n => match n with 47 :: _ => true | _ => false end) (Some (s_binary bid)).
Lemma s_names bid d ns n : w_file s_world [49] = Some (Some d) -> names_for (s_reader bid) bid d ns -> In n ns -> n = [47; 97].
Proof.
  intros E L Hn. assert (d = s_profile) by (cbn in E; congruence). subst d. inversion L as [ns' E1 E2 E3 E4|ns' E1 E2 E3 E4]; subst.
  - apply E4 in Hn as [[h [[H|[]] _]] _]. congruence.
  - apply E4 in Hn as [_ [ev [[<-|[]] H]]]. cbn in H. congruence.
Qed.
Lemma s_good bid : inputs_good s_world (s_reader bid) bid [[49]; [49]].
Proof.
  assert (F : forall f, In f [[49]; [49]] -> f = [49]) by (intros f [<-|[<-|[]]]; reflexivity).
  constructor.
  - constructor; intros l; apply Permutation_sym, Permutation_rev.
  - intros f d n h x Hf E. rewrite (F f Hf) in E. assert (d = s_profile) by (cbn in E; congruence). subst d. intros [H|[]] Hx. injection H as <- <-. destruct Hx as [<-|[]]. lia.
  - intros f d Hf E. rewrite (F f Hf) in E. assert (d = s_profile) by (cbn in E; congruence). subst d. split; [intros s e []|]. intros s Hs. unfold word, w64. cbn in Hs. destruct Hs as [<-|[<-|[<-|[<-|[]]]]]; cbn; lia.
  - intros f d ns n n' Hf E L Hn Hn'. rewrite (F f Hf) in E. rewrite (s_names bid d ns n E L Hn), (s_names bid d ns n' E L Hn'). reflexivity.
Qed.
Definition s_maps : mmaps := [(7, [MMapEntry 4096 65536 4096 [47; 97]])].
Lemma s_found bid d m : found_in s_world (s_reader bid) bid [49] d m -> d = s_profile /\ m = s_maps.
Proof.
  intros [E [ns [L H]]]. assert (d = s_profile) by (cbn in E; congruence). subst d. split; [reflexivity|].
  assert (X : forall x, In x ns -> x = [47; 97]) by (intros x; exact (s_names bid s_profile ns x E L)).
  assert (ND : NoDup ns /\ ns <> []) by (inversion L; subst; auto). destruct ns as [|x [|y ns]]; [destruct ND; congruence| |].
  - rewrite (X x (or_introl eq_refl)) in H. vm_compute in H. injection H as <-. reflexivity.
  - exfalso. destruct ND as [ND _]. inversion ND as [|? ? N1 N2]; subst. apply N1. left. rewrite (X x (or_introl eq_refl)), (X y (or_intror (or_introl eq_refl))). reflexivity.
Qed.
Lemma s_addresses bid : addresses_good (sb_segments (s_binary bid)) s_profile s_maps.
Proof.
  assert (D : (4 | 69888)) by (exists 17472; reflexivity).
  intros s pid Hs Hp. destruct Hs as [<-|[<-|[<-|[<-|[]]]]]; vm_compute in Hp; injection Hp as <-; cbv zeta; (split; intros I; first [exfalso; apply I; vm_compute; reflexivity|vm_compute; reflexivity|split; [vm_compute; reflexivity|vm_compute; exact D]]).
Qed.
Example C71_nonvacuous :
  (forall bid, inputs_good s_world (s_reader bid) bid [[49]; [49]]) /\
  (forall bid d m, found_in s_world (s_reader bid) bid [49] d m -> addresses_good (sb_segments (s_binary bid)) d m /\ one_segment (s_binary bid) (IsKernelMode m) 4096 69632) /\
  (exists d m, found_in s_world (s_reader []) [] [49] d m) /\
  Appends s_world (s_reader []) samples0 [[49]; [49]] = Ok ({| sa_range := [((0x1100, 0x1108), 6); ((0x110c, 0x20fc), 2)]; sa_addr := []; sa_branch := [((0x1108, 0x1100), 4)] |}, true) /\
  Append s_world (s_reader [97; 98]) samples0 [49] = Ok ({| sa_range := [((0x1100, 0x1108), 3); ((0x110c, 0x20fc), 1)]; sa_addr := []; sa_branch := [((0x1108, 0x1100), 2)] |}, true) /\
  Append s_world (s_reader [97]) samples0 [49] = Ok (samples0, false) /\
  Append s_world (SpeReader kSampling (fun _ => true) (Some (SpeBinary true [] (sb_segments (s_binary [])) [{| ph_load := true; ph_exec := true; ph_offset := 0; ph_vaddr := 70000 |}] None))) samples0 [49] = Abort.
Proof.
  split; [exact s_good|]. split.
  { intros bid d m F. destruct (s_found bid d m F) as [-> ->]. split; [exact (s_addresses bid)|]. split; [reflexivity|]. lia. }
  split.
  { exists s_profile, s_maps. split; [reflexivity|]. exists [[47; 97]]. split; [|vm_compute; reflexivity]. constructor 2; [reflexivity|discriminate|constructor; [intros []|constructor]|].
    intros n. split; [intros [<-|[]]; split; [reflexivity|]; exists s_event; split; [left; reflexivity|reflexivity]|intros [_ [ev [[<-|[]] H]]]; injection H as <-; left; reflexivity]. }
  split; [vm_compute; reflexivity|]. split; [vm_compute; reflexivity|]. split; vm_compute; reflexivity.
Qed.
