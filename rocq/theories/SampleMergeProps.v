(** C68: sample_merger writes the sum of its inputs and of what the output file
    held before. *)
From Coq Require Import Permutation.
From Verif Require Import Base SampleModel SampleSpec SampleProofs SampleProps SampleMergeModel SampleMergeSpec SampleMergeProofs.

Lemma sample_file_reads fs perf p m : sample_file fs p m <-> read_as fs perf Text p m.
Proof.
  unfold sample_file, read_as, ReadSample, AppendFile. split.
  - intros [c [-> E]]. rewrite E. reflexivity.
  - destruct (fs p) as [c|]; [|discriminate]. intros H. exists c. split; [reflexivity|].
    destruct (Append c samples0) as [[r b]| |]; cbn in H; try discriminate.
    destruct b; [|discriminate]. injection H as <-. reflexivity.
Qed.

Lemma sample_file_ok fs p m : sample_file fs p m -> samples_ok m.
Proof. intros [c [_ E]]. eapply reads_ok; eauto. Qed.

Lemma merge_run fs perf pr inputs output m0 ms :
  inputs_hold (read_as fs perf pr) inputs ms -> held_before fs output m0 ->
  MergeSample fs perf pr inputs output
  = Ok (write_file fs output (Write (fold_left Merge ms m0) []), true).
Proof.
  intros H B. unfold MergeSample. cbv zeta.
  destruct B as [[E ->]|[c [E A]]].
  - rewrite E, (merge_inputs_spec _ _ _ _ _ _ H). reflexivity.
  - rewrite E. unfold AppendFile. rewrite E, A. cbn [obind snd fst].
    rewrite (merge_inputs_spec _ _ _ _ _ _ H). reflexivity.
Qed.

(** Text inputs: the output file becomes a sample file with the sum of all
    inputs and of what it held before, and no other file changes. *)
Theorem C68_sum fs perf inputs output m0 ms :
  inputs_hold (sample_file fs) inputs ms -> held_before fs output m0 ->
  exists fs' r, MergeSample fs perf Text inputs output = Ok (fs', true) /\
    sum_of_all (m0 :: ms) r /\
    (fits_file r -> sample_file fs' output r) /\
    (forall p, p <> output -> fs' p = fs p).
Proof.
  intros H B.
  assert (O0 : samples_ok m0).
  { destruct B as [[_ ->]|B]; [apply samples0_ok|eapply sample_file_ok; eauto]. }
  assert (OM : Forall samples_ok ms).
  { unfold inputs_hold in H. clear - H. induction H as [|p m ps ms S F IH]; constructor; auto. eapply sample_file_ok; eauto. }
  assert (H' : inputs_hold (read_as fs perf Text) inputs ms).
  { unfold inputs_hold in *. clear - H. induction H as [|p m ps ms S F IH]; constructor; auto.
    apply sample_file_reads. exact S. }
  pose proof (merge_run fs perf Text inputs output m0 ms H' B) as E.
  pose proof (sum_all_fold ms m0 O0 OM) as S. pose proof (fold_Merge_ok ms m0 O0 OM) as OR.
  eexists _, _. split; [exact E|]. split; [exact S|]. split.
  - intros FF. exists (Write (fold_left Merge ms m0) []). unfold write_file.
    split; [rewrite (proj2 (path_eqb_eq output output)) by reflexivity; reflexivity|].
    apply C18_round_trip; auto.
  - intros p NE. unfold write_file. destruct (path_eqb p output) eqn:EP; [|reflexivity].
    apply path_eqb_eq in EP. congruence.
Qed.
Print Assumptions C68_sum.

(** The same for perf inputs, whatever their reader returns. *)
Theorem C68_sum_perf fs perf inputs output m0 ms pr :
  pr = Perf \/ pr = PerfSpe ->
  inputs_hold (fun p m => perf p = Ok (Some m) /\ samples_ok m) inputs ms -> held_before fs output m0 ->
  exists fs' r, MergeSample fs perf pr inputs output = Ok (fs', true) /\
    sum_of_all (m0 :: ms) r /\
    (fits_file r -> sample_file fs' output r) /\
    (forall p, p <> output -> fs' p = fs p).
Proof.
  intros PR H B.
  assert (O0 : samples_ok m0).
  { destruct B as [[_ ->]|B]; [apply samples0_ok|eapply sample_file_ok; eauto]. }
  assert (OM : Forall samples_ok ms).
  { unfold inputs_hold in H. clear - H. induction H as [|p m ps ms S F IH]; constructor; auto. tauto. }
  assert (H' : inputs_hold (read_as fs perf pr) inputs ms).
  { unfold inputs_hold in *. clear - H PR. induction H as [|p m ps ms S F IH]; constructor; auto.
    unfold read_as, ReadSample. destruct PR as [-> | ->]; tauto. }
  pose proof (merge_run fs perf pr inputs output m0 ms H' B) as E.
  pose proof (sum_all_fold ms m0 O0 OM) as S. pose proof (fold_Merge_ok ms m0 O0 OM) as OR.
  eexists _, _. split; [exact E|]. split; [exact S|]. split.
  - intros FF. exists (Write (fold_left Merge ms m0) []). unfold write_file.
    split; [rewrite (proj2 (path_eqb_eq output output)) by reflexivity; reflexivity|].
    apply C18_round_trip; auto.
  - intros p NE. unfold write_file. destruct (path_eqb p output) eqn:EP; [|reflexivity].
    apply path_eqb_eq in EP. congruence.
Qed.
Print Assumptions C68_sum_perf.

(** Merging in two steps is merging at once: the second run adds to the file of
    the first. *)
Theorem C68_incremental fs perf ins1 ins2 output m0 ms1 ms2 fs1 :
  inputs_hold (sample_file fs) ins1 ms1 -> held_before fs output m0 ->
  MergeSample fs perf Text ins1 output = Ok (fs1, true) ->
  inputs_hold (sample_file fs1) ins2 ms2 ->
  (forall r, sum_of_all (m0 :: ms1) r -> fits_file r) ->
  exists fs2 r, MergeSample fs1 perf Text ins2 output = Ok (fs2, true) /\
    sum_of_all (m0 :: ms1 ++ ms2) r /\ (fits_file r -> sample_file fs2 output r).
Proof.
  intros H1 B E1 H2 FF.
  destruct (C68_sum fs perf ins1 output m0 ms1 H1 B) as [fs' [r1 [E [S1 [SF1 _]]]]].
  rewrite E1 in E. injection E as <-. specialize (SF1 (FF _ S1)).
  destruct (C68_sum fs1 perf ins2 output r1 ms2 H2 (or_intror SF1)) as [fs2 [r [E2 [S2 [SF2 _]]]]].
  exists fs2, r. split; [exact E2|]. split; [|exact SF2].
  assert (OM2 : Forall samples_ok ms2).
  { unfold inputs_hold in H2. clear - H2. induction H2 as [|p m ps ms S F IH]; constructor; auto. eapply sample_file_ok; eauto. }
  assert (G : forall (at_ : samples -> option Z),
    (forall s x, samples_ok s -> at_ s = Some x -> u64_range x) ->
    at_ r1 = sum_counts (map at_ (m0 :: ms1)) -> at_ r = sum_counts (map at_ (r1 :: ms2)) ->
    at_ r = sum_counts (map at_ (m0 :: ms1 ++ ms2))).
  { intros at_ HR A1 A2. rewrite A2. cbn [map sum_counts fold_right]. fold (sum_counts (map at_ ms2)).
    assert (U : forall y, sum_counts (map at_ ms2) = Some y -> u64_range y).
    { clear - HR OM2. induction ms2 as [|m l IH]; intros y E; [discriminate|]. inversion OM2; subst.
      cbn [map sum_counts fold_right] in E. fold (sum_counts (map at_ l)) in E.
      destruct (at_ m) as [a|] eqn:EA, (sum_counts (map at_ l)) as [b|] eqn:EB; cbn in E; try discriminate.
      - injection E as <-. unfold u64_range. apply Z.mod_pos_bound. reflexivity.
      - injection E as <-. eapply HR; eauto.
      - injection E as <-. eapply IH; eauto. }
    rewrite A1. clear - U.
    change (add_counts (sum_counts (map at_ (m0 :: ms1))) (sum_counts (map at_ ms2))
            = sum_counts (map at_ (m0 :: ms1 ++ ms2))).
    assert (E : forall l, add_counts (sum_counts (map at_ l)) (sum_counts (map at_ ms2))
                          = sum_counts (map at_ (l ++ ms2))).
    { induction l as [|m l IH]; [apply add_counts_none_l|]. cbn [app map sum_counts fold_right].
      fold (sum_counts (map at_ l)). fold (sum_counts (map at_ (l ++ ms2))).
      rewrite add_counts_assoc, IH by exact U. reflexivity. }
    exact (E (m0 :: ms1)). }
  destruct S1 as [R1 [A1 B1]], S2 as [R2 [A2 B2]].
  split; [|split]; intros k.
  - apply (G (fun m => range_at m k)); auto.
    intros s x (N1 & N2 & N3 & F1 & F2 & F3) E. rewrite Forall_forall in F1.
    apply (aget_In pair_eqb pair_eqb_spec) in E. apply (F1 _ E).
  - apply (G (fun m => addr_at m k)); auto.
    intros s x (N1 & N2 & N3 & F1 & F2 & F3) E. rewrite Forall_forall in F2.
    apply (aget_In Z.eqb Z_eqb_reflect) in E. apply (F2 _ E).
  - apply (G (fun m => branch_at m k)); auto.
    intros s x (N1 & N2 & N3 & F1 & F2 & F3) E. rewrite Forall_forall in F3.
    apply (aget_In pair_eqb pair_eqb_spec) in E. apply (F3 _ E).
Qed.
Print Assumptions C68_incremental.

(** The order of the inputs does not matter. *)
Theorem C68_order fs perf ins ins' output m0 ms ms' fs1 fs2 :
  Permutation ins ins' ->
  inputs_hold (sample_file fs) ins ms -> inputs_hold (sample_file fs) ins' ms' -> held_before fs output m0 ->
  MergeSample fs perf Text ins output = Ok (fs1, true) -> MergeSample fs perf Text ins' output = Ok (fs2, true) ->
  (forall r, sum_of_all (m0 :: ms) r \/ sum_of_all (m0 :: ms') r -> fits_file r) ->
  exists r1 r2, sample_file fs1 output r1 /\ sample_file fs2 output r2 /\ same_samples r1 r2.
Proof.
  intros P H1 H2 B E1 E2 FF.
  assert (O0 : samples_ok m0).
  { destruct B as [[_ ->]|B]; [apply samples0_ok|eapply sample_file_ok; eauto]. }
  assert (OK : forall ins ms, inputs_hold (sample_file fs) ins ms -> Forall samples_ok ms).
  { clear. intros ins ms H. unfold inputs_hold in H. induction H as [|p m ps ms S F IH]; constructor; auto. eapply sample_file_ok; eauto. }
  assert (RA : forall ins ms, inputs_hold (sample_file fs) ins ms -> inputs_hold (read_as fs perf Text) ins ms).
  { clear. intros ins ms H. unfold inputs_hold in *. induction H as [|p m ps ms S F IH]; constructor; auto.
    apply sample_file_reads. exact S. }
  rewrite (merge_run fs perf Text ins output m0 ms (RA _ _ H1) B) in E1. injection E1 as <-.
  rewrite (merge_run fs perf Text ins' output m0 ms' (RA _ _ H2) B) in E2. injection E2 as <-.
  exists (fold_left Merge ms m0), (fold_left Merge ms' m0).
  assert (SF : forall r, samples_ok r -> fits_file r -> sample_file (write_file fs output (Write r [])) output r).
  { intros r Or Fr. exists (Write r []). unfold write_file.
    split; [rewrite (proj2 (path_eqb_eq output output)) by reflexivity; reflexivity|].
    apply C18_round_trip; auto. }
  split; [apply SF; [apply fold_Merge_ok; eauto|apply FF; left; apply sum_all_fold; eauto]|].
  split; [apply SF; [apply fold_Merge_ok; eauto|apply FF; right; apply sum_all_fold; eauto]|].
  apply C19_order_independent; eauto.
  assert (DET : forall p m m', sample_file fs p m -> sample_file fs p m' -> m = m').
  { intros p m m' [c [E A]] [c' [E' A']]. rewrite E in E'. injection E' as <-. rewrite A in A'. injection A'. auto. }
  clear - P H1 H2 DET. unfold inputs_hold in *.
  set (g := fun p : list Z => match p with [] => false | _ => true end) in *.
  assert (PF : Permutation (filter g ins) (filter g ins')).
  { clear - P. induction P; cbn [filter]; auto.
    - destruct (g x); auto.
    - destruct (g x), (g y); auto. apply perm_swap.
    - etransitivity; eauto. }
  destruct (Permutation_Forall2 PF H1) as [ms2 [P2 H3]].
  assert (ms2 = ms') as ->; [|exact P2].
  clear - H2 H3 DET. revert ms' H2. induction H3 as [|p m ps ms S F IH]; intros ms' H2; inversion H2; subst; auto.
  f_equal; [eapply DET; eauto|apply IH; auto].
Qed.
Print Assumptions C68_order.

(** A failing run changes no file; a missing or unreadable input makes it fail. *)
Theorem C68_failure_changes_nothing fs perf pr inputs output fs' :
  MergeSample fs perf pr inputs output = Ok (fs', false) -> forall p, fs' p = fs p.
Proof.
  unfold MergeSample. cbv zeta.
  assert (G : forall w, obind (merge_inputs fs perf pr inputs w) (fun r =>
      match r with None => Ok (fs, false) | Some s => Ok (write_file fs output (Write s []), true) end)
      = Ok (fs', false) -> fs' = fs).
  { intros w. destruct (merge_inputs fs perf pr inputs w) as [[s|]| |]; cbn [obind]; try discriminate.
    intros H. injection H as <-. reflexivity. }
  destruct (fs output).
  - destruct (AppendFile fs output samples0) as [[r b]| |]; cbn [obind snd]; try discriminate.
    destruct b; [intros H; apply G in H; subst; auto|]. intros H. injection H as <-. auto.
  - intros H. apply G in H. subst. auto.
Qed.
Print Assumptions C68_failure_changes_nothing.

Theorem C68_missing_input_fails fs perf before p after output m0 :
  p <> [] -> fs p = None -> held_before fs output m0 ->
  (forall q, In q before -> q = [] \/ fs q = None \/ exists m, sample_file fs q m) ->
  exists fs', MergeSample fs perf Text (before ++ p :: after) output = Ok (fs', false) /\
    forall q, fs' q = fs q.
Proof.
  intros NP NF B H. exists fs. split; [|auto].
  assert (M : forall w, merge_inputs fs perf Text (before ++ p :: after) w = Ok None).
  { intros w. apply merge_inputs_fails; auto.
    - unfold ReadSample, AppendFile. rewrite NF. reflexivity.
    - intros q I. destruct (H q I) as [->|[E|[m S]]]; [left; reflexivity|right..].
      + eexists. unfold ReadSample, AppendFile. rewrite E. reflexivity.
      + eexists. apply sample_file_reads. exact S. }
  unfold MergeSample. cbv zeta. destruct B as [[E ->]|[c [E A]]].
  - rewrite E, M. reflexivity.
  - rewrite E. unfold AppendFile. rewrite E, A. cbn [obind snd fst]. rewrite M. reflexivity.
Qed.
Print Assumptions C68_missing_input_fails.

(** ** A concrete run: two inputs (one twice), an empty name and an old output *)
Definition xm1 : samples := {| sa_range := [((16, 31), 3)]; sa_addr := []; sa_branch := [((31, 16), 2)] |}.
Definition xm2 : samples := {| sa_range := [((16, 31), 4); ((64, 70), 1)]; sa_addr := [(64, 9)]; sa_branch := [] |}.
Definition xfs : files := fun p =>
  match p with
  | [1] => Some (Write xm1 []) | [2] => Some (Write xm2 []) | [9] => Some (Write xm1 [10; 10]) | _ => None
  end.
Example C68_nonvacuous :
  inputs_hold (sample_file xfs) [[1]; []; [2]; [1]] [xm1; xm2; xm1] /\ held_before xfs [9] xm1 /\
  (let r := {| sa_range := [((16, 31), 13); ((64, 70), 1)]; sa_addr := [(64, 9)]; sa_branch := [((31, 16), 6)] |} in
   fits_file r /\
   exists fs', MergeSample xfs (fun _ => Ok None) Text [[1]; []; [2]; [1]] [9] = Ok (fs', true) /\
     sample_file fs' [9] r).
Proof.
  split; [|split].
  - unfold inputs_hold. cbn [filter].
    assert (S1 : sample_file xfs [1] xm1) by (eexists; split; [reflexivity|vm_compute; reflexivity]).
    assert (S2 : sample_file xfs [2] xm2) by (eexists; split; [reflexivity|vm_compute; reflexivity]).
    auto.
  - right. eexists. split; [reflexivity|vm_compute; reflexivity].
  - cbv zeta. split; [vm_compute; auto|].
    eexists. split; [vm_compute; reflexivity|]. eexists. split; [reflexivity|vm_compute; reflexivity].
Qed.
