(** C67: the ARM SPE reader of create_gcov counts every branch record of the
    binary, and its ranges are the straight-line runs between the branches. *)
From Coq Require Import Sorted Permutation.
From Verif Require Import Base SampleModel SampleSpec SampleProofs SampleProps SimpleSpeModel SimpleSpeSpec SimpleSpeProofs.

Lemma of_to_mapping m : of_mapping (to_mapping m) = m.
Proof. destruct m; reflexivity. Qed.

Lemma find_mapping events binary mp : first_mapping events binary mp ->
  FindBinaryMMap events binary = Some (of_mapping mp).
Proof.
  intros F. pose proof (FindBinaryMMap_spec events binary) as S.
  destruct (FindBinaryMMap events binary) as [m|].
  - rewrite (first_mapping_unique _ _ _ _ F S), of_to_mapping. reflexivity.
  - exfalso. destruct F as [b [f [a [E [SF _]]]]]. eapply S; [|exact SF]. rewrite E. apply in_app_iff. right. left. reflexivity.
Qed.

Lemma counts_retired mp r : counts mp r = true -> r_retired r && r_branch r = true.
Proof.
  unfold counts, stays_at, jumps. destruct (r_retired r), (r_branch r); cbn; auto.
Qed.

Lemma read_spec events binary mp : first_mapping events binary mp -> a64_file mp events ->
  (0 < how_many (counts mp) events ->
   exists s, Read events binary = Ok (Some (s, how_many (counts mp) events)) /\ samples_ok s /\
     (forall a, addr_at s a = entry_of (stays mp events a)) /\
     (forall a t, branch_at s (a, t) = entry_of (taken mp events a t)) /\
     (forall b e w, range_at s (b, e) = Some w <-> run mp events b e w)) /\
  (how_many (counts mp) events = 0 -> Read events binary = Ok None).
Proof.
  intros F K. unfold Read. rewrite (find_mapping _ _ _ F). cbv zeta.
  assert (K' : 0 <= mp_start mp /\ 0 <= mp_len mp /\ mp_start mp + mp_len mp < 2 ^ 64 /\
    0 <= mp_pgoff mp /\ mp_pgoff mp + mp_len mp + 4096 <= 2 ^ 64) by (unfold a64_file in K; tauto).
  destruct (events_spec mp K' events rstate0) as [S1 [S2 [S3 [S4 S5]]]].
  cbn [rstate0 st_addr st_branch st_total st_spe_events st_branch_records] in *.
  rewrite Z.add_0_l in S3, S4, S5.
  set (s := fold_left (step_event (of_mapping mp)) events rstate0) in *.
  pose proof (filter_le (counts mp) (records_of events)) as L1.
  pose proof (filter_le (fun r => r_retired r && r_branch r) (records_of events)) as L2.
  pose proof (filter_le is_aux events) as L3.
  pose proof (zlen_nonneg (filter (counts mp) (records_of events))) as P1.
  pose proof (zlen_nonneg (filter (fun r => r_retired r && r_branch r) (records_of events))) as P2.
  pose proof (zlen_nonneg (filter is_aux events)) as P3.
  assert (KB : zlen (records_of events) < 2 ^ 64 /\ zlen events < 2 ^ 64) by (unfold a64_file in K; tauto).
  change (2 ^ 64) with w64 in KB.
  assert (I : forall x n, u64 x = u64 n -> 0 <= x < w64 -> 0 <= n < w64 -> x = n).
  { unfold u64. intros x n E R1 R2. rewrite !Z.mod_small in E; auto. }
  assert (RNG : 0 <= st_total s < w64 /\ 0 <= st_spe_events s < w64 /\ 0 <= st_branch_records s < w64).
  { assert (G : forall P : rstate -> Prop, P rstate0 -> (forall s e, P s -> P (step_event (of_mapping mp) s e)) -> P s).
    { intros P P0 PS. unfold s. generalize rstate0 P0. clear - PS.
      induction events as [|e es IH]; intros s0 P0; cbn [fold_left]; auto. }
    apply (G (fun s => 0 <= st_total s < w64 /\ 0 <= st_spe_events s < w64 /\ 0 <= st_branch_records s < w64)).
    - cbn. unfold w64. lia.
    - assert (UB : forall x, 0 <= u64 x < w64) by (intros; apply Z.mod_pos_bound; reflexivity).
      intros s0 e R0. destruct e as [a0 l0 o0 f0|rs|]; cbn [step_event]; auto.
      assert (G2 : forall s1, 0 <= st_total s1 < w64 /\ 0 <= st_spe_events s1 < w64 /\ 0 <= st_branch_records s1 < w64 ->
        0 <= st_total (fold_left (step (of_mapping mp)) rs s1) < w64 /\
        0 <= st_spe_events (fold_left (step (of_mapping mp)) rs s1) < w64 /\
        0 <= st_branch_records (fold_left (step (of_mapping mp)) rs s1) < w64).
      { induction rs as [|r rs IH]; intros s1 R1; cbn [fold_left]; auto. apply IH.
        destruct (step_spec mp K' s1 r) as [_ [_ [T3 [T4 T5]]]]. rewrite T3, T4, T5.
        destruct (counts mp r), (r_retired r && r_branch r); repeat split; try apply UB; try lia. }
      apply G2. cbn. split; [lia|]. split; [apply UB|lia]. }
  destruct RNG as [R1 [R2 R3]].
  apply I in S3; [|lia|lia]. apply I in S4; [|lia|lia]. apply I in S5; [|lia|lia].
  fold (how_many (counts mp) events) in S3.
  rewrite S3, S4, S5.
  split.
  - intros POS. pose proof POS as POS'. apply count_pos in POS'. destruct POS' as [r [Ir Cr]].
    assert (AUX : 0 < zlen (filter is_aux events)).
    { unfold records_of in Ir. apply in_flat_map in Ir. destruct Ir as [e [Ie Ir]].
      assert (J : In e (filter is_aux events)) by (apply filter_In; split; [exact Ie|]; destruct e; cbn in *; tauto).
      destruct (filter is_aux events); [destruct J|]. rewrite zlen_cons. pose proof (zlen_nonneg l). lia. }
    assert (BR : 0 < zlen (filter (fun r => r_retired r && r_branch r) (records_of events))).
    { assert (J : In r (filter (fun r => r_retired r && r_branch r) (records_of events)))
        by (apply filter_In; split; [exact Ir|]; eapply counts_retired; eauto).
      destruct (filter (fun r => r_retired r && r_branch r) (records_of events)); [destruct J|]. rewrite zlen_cons. pose proof (zlen_nonneg l). lia. }
    destruct (Z.eqb_spec (zlen (filter is_aux events)) 0); [lia|].
    destruct (Z.eqb_spec (zlen (filter (fun r => r_retired r && r_branch r) (records_of events))) 0); [lia|].
    destruct (Z.eqb_spec (how_many (counts mp) events) 0); [lia|]. cbn [orb].
    rewrite S1, S2. destruct (synth mp events K) as [R [E [N [G V]]]]. rewrite E. cbn [obind].
    eexists. split; [reflexivity|].
    assert (GA : forall a, aget Z.eqb a (madd_all Z.eqb (flat_map (stay_inc mp) (records_of events)) [])
                 = entry_of (stays mp events a)) by (intros; apply (A_spec mp events K)).
    assert (GB : forall a t, aget pair_eqb (a, t) (madd_all pair_eqb (flat_map (jump_inc mp) (records_of events)) [])
                 = entry_of (taken mp events a t)) by (intros; apply (B_spec mp events K)).
    assert (OFF : forall x, 0 < x /\ x + 4096 < w64 -> u64_range x) by (unfold u64_range, w64; intros; lia).
    assert (TO : forall t, is_target mp events t -> u64_range t).
    { intros t T. destruct (target_ok mp events K t T). apply OFF. lia. }
    assert (BO : forall b, is_branch mp events b -> u64_range b).
    { intros b T. assert (0 < b /\ b + 4096 < w64); [|apply OFF; lia].
      destruct T as [H|[t H]]; apply count_pos in H; destruct H as [r0 [I0 Q]];
        destruct (rec_al mp events K r0 I0) as [AL _].
      - unfold stays_at in Q. rewrite !Bool.andb_true_iff, !Z.eqb_eq in Q.
        destruct Q as [[_ M] <-]. destruct (off_ok mp events K _ M AL) as [? [? ?]]; lia.
      - unfold jumps in Q. rewrite !Bool.andb_true_iff, !Z.eqb_eq in Q.
        destruct Q as [[[[_ M] _] <-] _]. destruct (off_ok mp events K _ M AL) as [? [? ?]]; lia. }
    split.
    + unfold samples_ok. cbn [sa_range sa_addr sa_branch].
      split; [exact N|]. split; [apply (NoDup_madd_all Z.eqb Z_eqb_reflect); constructor|].
      split; [apply (NoDup_madd_all pair_eqb pair_eqb_spec); constructor|].
      split; [|split]; apply Forall_forall.
      * intros [[b e] w] IR. cbn [fst snd].
        apply (aget_NoDup_In pair_eqb pair_eqb_spec) in IR; [|exact N]. pose proof IR as IR2.
        apply G in IR. destruct IR as [t [e0 [[FT [R0 G0]] GE]]].
        assert (E0 : e0 + 0 < w64 /\ 4 <= e0).
        { destruct FT as [TT [[X1 [X2 X3]]|[X1 ->]]].
          - destruct (target_ok mp events K _ X2) as [? [? ?]]. Z.div_mod_to_equations. lia.
          - destruct (target_ok mp events K _ TT) as [? [? ?]]. lia. }
        pose proof FT as [TT _]. destruct (target_ok mp events K _ TT) as [T1 _].
        split; [unfold u64_range; unfold w64 in *; lia|]. split.
        -- destruct GE as [[X1 _]|[_ ->]]; [apply BO; auto|]. unfold u64_range; unfold w64 in *; lia.
        -- apply (aget_In pair_eqb pair_eqb_spec) in IR2. apply V in IR2. exact IR2.
      * intros [a c] IA. cbn [fst snd].
        apply (aget_NoDup_In Z.eqb Z_eqb_reflect) in IA; [|apply (NoDup_madd_all Z.eqb Z_eqb_reflect); constructor].
        rewrite GA in IA. unfold entry_of in IA. destruct (Z.eqb_spec (stays mp events a) 0); [discriminate|].
        injection IA as <-. pose proof (proj2 (A_spec mp events K a)) as R0.
        split; [|exact R0]. apply BO. left. lia.
      * intros [[a t] c] IA. cbn [fst snd].
        apply (aget_NoDup_In pair_eqb pair_eqb_spec) in IA; [|apply (NoDup_madd_all pair_eqb pair_eqb_spec); constructor].
        rewrite GB in IA. unfold entry_of in IA. destruct (Z.eqb_spec (taken mp events a t) 0); [discriminate|].
        injection IA as <-. pose proof (proj2 (B_spec mp events K a t)) as R0.
        split; [|split; [|exact R0]]; [apply BO; right; exists t; lia|].
        apply TO. apply count_pos.
        assert (Q : 0 < taken mp events a t) by lia. apply count_pos in Q. destruct Q as [r0 [I0 Q]].
        exists r0. split; [exact I0|]. unfold jumps_to, jumps in *.
        rewrite !Bool.andb_true_iff, !Z.eqb_eq in *. tauto.
    + unfold addr_at, branch_at, range_at. cbn [sa_range sa_addr sa_branch]. auto.
  - intros ->. destruct (zlen (filter is_aux events) =? 0); [reflexivity|].
    rewrite Z.eqb_refl, Bool.orb_true_r. reflexivity.
Qed.

(** Reading a file whose binary is mapped and that has a record of a branch of
    the binary: each not-taken branch and each branch-target pair is counted as
    often as it was recorded, the ranges are exactly the runs, and the total is
    the number of records plus the bytes of the ranges. *)
Theorem C67_counts events binary mp :
  first_mapping events binary mp -> a64_file mp events ->
  0 < how_many (counts mp) events ->
  exists s total, ReadAndSetTotalCount events binary = Ok (Some (s, total)) /\ samples_ok s /\
    (forall a, addr_at s a = entry_of (stays mp events a)) /\
    (forall a t, branch_at s (a, t) = entry_of (taken mp events a t)) /\
    (forall b e w, range_at s (b, e) = Some w <-> run mp events b e w) /\
    total = (how_many (counts mp) events + weighted_total s) mod 2 ^ 64.
Proof.
  intros F K P. destruct (proj1 (read_spec _ _ _ F K) P) as [s [E [O [GA [GB GR]]]]].
  unfold ReadAndSetTotalCount. rewrite E. cbn [obind].
  eexists _, _. split; [reflexivity|]. split; [exact O|]. split; [exact GA|]. split; [exact GB|].
  split; [exact GR|]. rewrite C19_total_count. unfold u64. change w64 with (2 ^ 64).
  rewrite Zplus_mod_idemp_r. reflexivity.
Qed.
Print Assumptions C67_counts.

(** The reader refuses a file exactly when the binary is not mapped, or no record
    of its traces counts. *)
Theorem C67_refuses events binary :
  (forall mp, first_mapping events binary mp -> a64_file mp events) ->
  (ReadAndSetTotalCount events binary = Ok None <->
   forall mp, first_mapping events binary mp -> how_many (counts mp) events = 0).
Proof.
  intros H. split.
  - intros E mp F. destruct (Z.eq_dec (how_many (counts mp) events) 0) as [|NE]; [auto|].
    destruct (C67_counts events binary mp F (H _ F)) as [s [t [E2 _]]]; [|congruence].
    pose proof (zlen_nonneg (filter (counts mp) (records_of events))). unfold how_many in *. lia.
  - intros Z0. unfold ReadAndSetTotalCount. pose proof (FindBinaryMMap_spec events binary) as S.
    destruct (FindBinaryMMap events binary) as [m|] eqn:EF.
    + rewrite (proj2 (read_spec _ _ _ S (H _ S)) (Z0 _ S)). reflexivity.
    + unfold Read. rewrite EF. reflexivity.
Qed.
Print Assumptions C67_refuses.

(** Two different ranges share no address, and inside of a range there is no
    branch before its end and no target after its start. *)
Theorem C67_ranges_disjoint events binary mp s total :
  first_mapping events binary mp -> a64_file mp events ->
  ReadAndSetTotalCount events binary = Ok (Some (s, total)) ->
  (forall b e w, range_at s (b, e) = Some w ->
     b <= e /\ (forall a, is_branch mp events a -> ~ b <= a < e) /\
     (forall t, is_target mp events t -> ~ b < t <= e)) /\
  (forall b1 e1 w1 b2 e2 w2, range_at s (b1, e1) = Some w1 -> range_at s (b2, e2) = Some w2 ->
     (b1, e1) = (b2, e2) \/ e1 < b2 \/ e2 < b1).
Proof.
  intros F K E.
  assert (P : 0 < how_many (counts mp) events).
  { pose proof (zlen_nonneg (filter (counts mp) (records_of events))).
    destruct (Z.eq_dec (how_many (counts mp) events) 0) as [Q|NE]; [|unfold how_many in *; lia].
    unfold ReadAndSetTotalCount in E. rewrite (proj2 (read_spec _ _ _ F K) Q) in E. discriminate. }
  destruct (C67_counts events binary mp F K P) as [s' [t' [E' [_ [_ [_ [G _]]]]]]].
  rewrite E in E'. injection E' as <- <-.
  assert (AL : forall t e b w, run_start mp events t e b w -> b mod 4 = 0 /\ e mod 4 = 0).
  { intros t e b w [FT [_ GS]]. split.
    - destruct GS as [[-> _]|[_ [_ [BB _]]]].
      + destruct FT as [TT _]. apply (target_ok mp events K _ TT).
      + destruct (branch_ok mp events K _ BB) as [_ A]. Z.div_mod_to_equations. lia.
    - destruct FT as [TT [[_ [X _]]|[_ ->]]].
      + apply (target_ok mp events K _ X).
      + destruct (target_ok mp events K _ TT) as [_ [A _]]. Z.div_mod_to_equations. lia. }
  assert (BE : forall t e b w x, run_start mp events t e b w -> run_end mp events e b x ->
     t <= b <= x /\ x < e).
  { intros t e b w x RS RE. destruct (AL _ _ _ _ RS) as [A1 A2]. destruct RS as [FT [R _]].
    destruct RE as [[_ [X _]]|[_ ->]]; [lia|]. Z.div_mod_to_equations. lia. }
  split.
  - intros b e w H. apply G in H. destruct H as [t [e0 [RS RE]]]. destruct (BE _ _ _ _ _ RS RE) as [X1 X2].
    split; [lia|]. split.
    + intros a BA Q. destruct RE as [[_ [_ M]]|[M ->]]; specialize (M a BA ltac:(lia)); lia.
    + intros t0 T0 Q. destruct RS as [[TT [[_ [_ M]]|[M _]]] _].
      * specialize (M t0 T0 ltac:(lia)). lia.
      * specialize (M t0 T0). lia.
  - intros b1 e1 w1 b2 e2 w2 H1 H2. apply G in H1. apply G in H2.
    destruct H1 as [t1 [l1 [S1 N1]]], H2 as [t2 [l2 [S2 N2]]].
    destruct (BE _ _ _ _ _ S1 N1) as [X1 X2], (BE _ _ _ _ _ S2 N2) as [Y1 Y2].
    assert (FU : t1 = t2 -> l1 = l2).
    { intros ->. destruct S1 as [[_ L1] _], S2 as [[_ L2] _].
      destruct L1 as [[P1 [P2 P3]]|[P1 P2]], L2 as [[Q1 [Q2 Q3]]|[Q1 Q2]].
      - specialize (P3 _ Q2 Q1). specialize (Q3 _ P2 P1). lia.
      - specialize (Q1 _ P2). lia.
      - specialize (P1 _ Q2). lia.
      - lia. }
    assert (TO : forall t l t' l' b w b' w', run_start mp events t l b w -> run_start mp events t' l' b' w' ->
       t < t' -> l <= t').
    { intros t l t' l' b w b' w' [[_ L] _] [[T' _] _] LT. destruct L as [[_ [_ M]]|[M _]].
      - apply M; auto.
      - specialize (M _ T'). lia. }
    destruct (Z.lt_trichotomy t1 t2) as [LT|[EQ|LT]].
    + pose proof (TO _ _ _ _ _ _ _ _ S1 S2 LT). lia.
    + subst t2. specialize (FU eq_refl). subst l2.
      assert (W : forall b w x b' w' x', run_start mp events t1 l1 b w -> run_end mp events l1 b x ->
         run_start mp events t1 l1 b' w' -> run_end mp events l1 b' x' -> b < b' -> x < b').
      { intros b w x b' w' x' RS RE RS' RE' LT. destruct RS' as [_ [_ GS']].
        pose proof (BE _ _ _ _ _ RS RE).
        destruct GS' as [[-> _]|[_ [_ [BB [TB _]]]]]; [lia|].
        destruct (AL _ _ _ _ RS) as [A1 _]. destruct (branch_ok mp events K _ BB) as [_ A2].
        assert (b <= b' - 4) by (Z.div_mod_to_equations; lia).
        destruct RE as [[_ [_ M]]|[M ->]]; specialize (M _ BB ltac:(lia)); lia. }
      destruct (Z.lt_trichotomy b1 b2) as [L|[->|L]].
      * right. left. exact (W _ _ _ _ _ _ S1 N1 S2 N2 L).
      * left. f_equal. destruct N1 as [[P1 [P2 P3]]|[P1 P2]], N2 as [[Q1 [Q2 Q3]]|[Q1 Q2]].
        -- specialize (P3 _ Q1 ltac:(lia)). specialize (Q3 _ P1 ltac:(lia)). lia.
        -- specialize (Q1 _ P1 ltac:(lia)). lia.
        -- specialize (P1 _ Q1 ltac:(lia)). lia.
        -- lia.
      * right. right. exact (W _ _ _ _ _ _ S2 N2 S1 N1 L).
    + pose proof (TO _ _ _ _ _ _ _ _ S2 S1 LT). lia.
Qed.
Print Assumptions C67_ranges_disjoint.

(** Every target starts a range, whose count is the number of jumps to it; code
    that falls through into the target is not counted there. *)
Theorem C67_every_target events binary mp s total t :
  first_mapping events binary mp -> a64_file mp events ->
  ReadAndSetTotalCount events binary = Ok (Some (s, total)) ->
  is_target mp events t ->
  (exists e, range_at s (t, e) = Some (entries mp events t)) /\
  (forall e w, range_at s (t, e) = Some w -> w = entries mp events t).
Proof.
  intros F K E T.
  assert (P : 0 < how_many (counts mp) events).
  { pose proof (zlen_nonneg (filter (counts mp) (records_of events))).
    destruct (Z.eq_dec (how_many (counts mp) events) 0) as [Q|NE]; [|unfold how_many in *; lia].
    unfold ReadAndSetTotalCount in E. rewrite (proj2 (read_spec _ _ _ F K) Q) in E. discriminate. }
  destruct (C67_counts events binary mp F K P) as [s' [t' [E' [_ [_ [_ [G _]]]]]]].
  rewrite E in E'. injection E' as <- <-. split.
  - destruct (next_target mp events t T) as [e FT]. destruct (follows_lt mp events K t e FT) as [LT _].
    destruct (least (branch_list mp events) t) as [[x [Ix [Lx M]]]|N].
    + destruct (Z.lt_ge_cases x e) as [XE|XE].
      * exists x. apply G. exists t, e. split; [split; [exact FT|]; split; [lia|]; left; auto|].
        left. split; [apply branch_list_In; exact Ix|]. split; [lia|].
        intros b B L. apply M; auto. apply branch_list_In; auto.
      * exists (e - 4). apply G. exists t, e. split; [split; [exact FT|]; split; [lia|]; left; auto|].
        right. split; [|reflexivity]. intros b B L. specialize (M b (proj2 (branch_list_In mp events b) B) L). lia.
    + exists (e - 4). apply G. exists t, e. split; [split; [exact FT|]; split; [lia|]; left; auto|].
      right. split; [|reflexivity]. intros b B L. specialize (N b (proj2 (branch_list_In mp events b) B)). lia.
  - intros e w H. apply G in H. destruct H as [t0 [e0 [RS _]]].
    destruct RS as [[T0 FT] [R GS]]. destruct GS as [[-> ->]|[LT _]]; [reflexivity|]. exfalso.
    destruct FT as [[_ [_ M]]|[M _]].
    + specialize (M t T LT). lia.
    + specialize (M t T). lia.
Qed.
Print Assumptions C67_every_target.

(** Every not-taken branch that ends a range starts the range of its
    fall-through, unless that is a target itself or too far from the last
    target. *)
Theorem C67_every_fall_through events binary mp s total b x w :
  first_mapping events binary mp -> a64_file mp events ->
  ReadAndSetTotalCount events binary = Ok (Some (s, total)) ->
  range_at s (b, x) = Some w -> 0 < stays mp events x ->
  is_target mp events (x + 4) \/
  (exists t, is_target mp events t /\ (forall t', is_target mp events t' -> t' <= t) /\ t + 4096 <= x + 4) \/
  (exists e, range_at s (x + 4, e) = Some (stays mp events x)).
Proof.
  intros F K E H SX.
  assert (P : 0 < how_many (counts mp) events).
  { pose proof (zlen_nonneg (filter (counts mp) (records_of events))).
    destruct (Z.eq_dec (how_many (counts mp) events) 0) as [Q|NE]; [|unfold how_many in *; lia].
    unfold ReadAndSetTotalCount in E. rewrite (proj2 (read_spec _ _ _ F K) Q) in E. discriminate. }
  destruct (C67_counts events binary mp F K P) as [s' [t' [E' [_ [_ [_ [G _]]]]]]].
  rewrite E in E'. injection E' as <- <-.
  apply G in H. destruct H as [t [e [RS RE]]].
  assert (BX : is_branch mp events x) by (left; exact SX).
  destruct (branch_ok mp events K _ BX) as [X0 XA].
  pose proof RS as [FT [R GS]]. destruct (follows_lt mp events K t e FT) as [TE EA].
  assert (BA : b mod 4 = 0).
  { destruct GS as [[-> _]|[_ [_ [BB _]]]].
    - destruct FT as [TT _]. apply (target_ok mp events K _ TT).
    - destruct (branch_ok mp events K _ BB) as [_ A]. Z.div_mod_to_equations. lia. }
  assert (XB : b <= x < e).
  { destruct RE as [[_ [Q _]]|[_ ->]]; [lia|]. Z.div_mod_to_equations. lia. }
  destruct (Z.lt_ge_cases (x + 4) e) as [XE|XE].
  - right. right.
    assert (RS2 : run_start mp events t e (x + 4) (stays mp events x)).
    { split; [exact FT|]. split; [lia|]. right. split; [lia|]. replace (x + 4 - 4) with x by lia.
      split; [reflexivity|]. split; [exact BX|]. split; [lia|]. intros b' B' R'.
      destruct (Z.lt_ge_cases b' b) as [L|L].
      - destruct GS as [[-> _]|[_ [_ [BB [TB M]]]]]; [lia|]. apply M; auto. split; [lia|].
        destruct (branch_ok mp events K _ B') as [_ A]. Z.div_mod_to_equations. lia.
      - assert (b' = x) as -> by (destruct RE as [[_ [_ M]]|[M ->]]; specialize (M b' B' L); lia). exact SX. }
    destruct (least (branch_list mp events) (x + 4)) as [[y [Iy [Ly M]]]|N].
    + destruct (Z.lt_ge_cases y e) as [YE|YE].
      * exists y. apply G. exists t, e. split; [exact RS2|].
        left. split; [apply branch_list_In; exact Iy|]. split; [lia|].
        intros b' B' L. apply M; auto. apply branch_list_In; auto.
      * exists (e - 4). apply G. exists t, e. split; [exact RS2|].
        right. split; [|reflexivity]. intros b' B' L. specialize (M b' (proj2 (branch_list_In mp events b') B') L). lia.
    + exists (e - 4). apply G. exists t, e. split; [exact RS2|].
      right. split; [|reflexivity]. intros b' B' L. specialize (N b' (proj2 (branch_list_In mp events b') B')). lia.
  - assert (x + 4 = e) by (Z.div_mod_to_equations; lia).
    destruct FT as [TT [[_ [TE' _]]|[M ->]]].
    + left. congruence.
    + right. left. exists t. split; [exact TT|]. split; [exact M|]. lia.
Qed.
Print Assumptions C67_every_fall_through.

(** Appending a second file adds its counts to those of the first. *)
Theorem C67_append_adds own total events binary mp :
  first_mapping events binary mp -> a64_file mp events -> 0 < how_many (counts mp) events ->
  samples_ok own ->
  exists r s, Append (own, total) events binary
              = Ok (Some (r, (total + how_many (counts mp) events) mod 2 ^ 64)) /\
    pointwise_sum own s r /\
    (forall a, addr_at s a = entry_of (stays mp events a)) /\
    (forall a t, branch_at s (a, t) = entry_of (taken mp events a t)) /\
    (forall b e w, range_at s (b, e) = Some w <-> run mp events b e w).
Proof.
  intros F K P O. destruct (proj1 (read_spec _ _ _ F K) P) as [s [E [OS [GA [GB GR]]]]].
  unfold Append. rewrite E. cbn [obind fst snd].
  exists (Merge own s), s. split; [reflexivity|].
  split; [apply C19_merge_pointwise; auto|]. auto.
Qed.
Print Assumptions C67_append_adds.

(** ** A concrete file *)
Definition xr (ip : Z) (cond nt : bool) (tgt : Z) : spe_record :=
  {| r_retired := true; r_branch := true; r_ip := ip; r_cond := cond; r_not_taken := nt; r_target := tgt |}.
Definition x_bin : list Z := [47; 98; 47; 97].                    (* /b/a *)
Definition x_file : list event :=
  [Mmap 0x7000 0x1000 0 [47; 108];                                (* /l *)
   OtherEvent;
   Mmap 0x40000 0x2000 0x1000 [47; 120; 47; 97];                  (* /x/a *)
   Mmap 0x90000 0x2000 0 x_bin;                                   (* not the first one *)
   Auxtrace [xr 0x40020 false false 0x40100; xr 0x40108 true true 0; xr 0x40108 true true 0;
             xr 0x40110 true false 0x40100;
             {| r_retired := false; r_branch := true; r_ip := 0x40020; r_cond := false;
                r_not_taken := false; r_target := 0x40100 |};
             xr 0x7010 false false 0x40100; xr 0x40020 false false 0x7010];
   Auxtrace [xr 0x40130 false false 0x4010c]].
Definition x_map : mapping := {| mp_start := 0x40000; mp_len := 0x2000; mp_pgoff := 0x1000 |}.

Example C67_nonvacuous :
  first_mapping x_file x_bin x_map /\ a64_file x_map x_file /\ 0 < how_many (counts x_map) x_file /\
  ReadAndSetTotalCount x_file x_bin
  = Ok (Some ({| sa_range := [((0x1100, 0x1108), 2); ((0x110c, 0x1110), 1)];
                 sa_addr := [(0x1108, 2)];
                 sa_branch := [((0x1020, 0x1100), 1); ((0x1110, 0x1100), 1); ((0x1130, 0x110c), 1)] |}, 28)).
Proof.
  split; [|split; [|split; [|vm_compute; reflexivity]]].
  - exists [Mmap 0x7000 0x1000 0 [47; 108]; OtherEvent], [47; 120; 47; 97]. eexists. split; [reflexivity|].
    split.
    + exists [97]. split; (split; [intros [H|[]]; discriminate|]); right.
      * exists [47; 120]. reflexivity.
      * exists [47; 98]. reflexivity.
    + intros a l o f [H|[H|[]]]; [|discriminate]. injection H as <- <- <- <-.
      intros S. apply same_file_name_spec in S. vm_compute in S. discriminate.
  - unfold a64_file, x_map. cbn [mp_start mp_len mp_pgoff].
    split; [lia|]. split; [lia|]. split; [lia|]. split; [lia|]. split; [lia|].
    split; [split; reflexivity|]. split; [|split; vm_compute; reflexivity].
    unfold x_file, records_of. cbn [flat_map app]. repeat constructor.
  - vm_compute. reflexivity.
Qed.

(** The two fall-throughs of the branch at 0x1108 into the target 0x110c are
    recorded, but the range behind it has the count of the one jump: the counts
    of ranges are no numbers of executions. *)
Theorem C67_executions_refuted :
  ~ (forall events binary mp s total t e w,
       first_mapping events binary mp -> a64_file mp events ->
       ReadAndSetTotalCount events binary = Ok (Some (s, total)) ->
       range_at s (t, e) = Some w -> is_target mp events t -> is_branch mp events (t - 4) ->
       entries mp events t + stays mp events (t - 4) <= w).
Proof.
  intros H. destruct C67_nonvacuous as [F [K [_ E]]].
  specialize (H _ _ _ _ _ 0x110c 0x1110 1 F K E eq_refl).
  assert (T : is_target x_map x_file 0x110c) by (vm_compute; reflexivity).
  assert (B : is_branch x_map x_file (0x110c - 4)) by (left; vm_compute; reflexivity).
  specialize (H T B). vm_compute in H. apply H. reflexivity.
Qed.
Print Assumptions C67_executions_refuted.
