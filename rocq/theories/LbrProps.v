(** C20: only valid branch records contribute samples. *)
From Verif Require Import Base SampleModel SampleProofs LbrModel LbrSpec LbrProofs.

Definition events_ok (evs : list sample_event) : Prop :=
  Forall (fun ev => Forall (fun e => 0 <= b_from e < 2 ^ 64 /\ 0 <= b_to e < 2 ^ 64) (ev_stack ev)) evs.
Definition counts_ok (s : samples) : Prop :=
  (forall k, 0 <= count_of (sa_range s) k < 2 ^ 64) /\
  (forall k, 0 <= count_of (sa_branch s) k < 2 ^ 64).

(** Exact counts: every range and branch counter grows by the number of stack
    entries that contribute it. *)
Theorem C20_exact_counts matches limit evs s : events_ok evs -> counts_ok s ->
  let s' := AppendPerf matches limit evs s in
  (forall k, count_of (sa_range s') k
     = (count_of (sa_range s) k + total_occurrences (range_entry matches limit) k evs) mod 2 ^ 64) /\
  (forall k, count_of (sa_branch s') k
     = (count_of (sa_branch s) k + total_occurrences (branch_of matches limit) k evs) mod 2 ^ 64).
Proof.
  intros E [C1 C2]. apply (AppendPerf_spec matches limit evs s); auto;
    intros k; apply Z.mod_small; [apply C1|apply C2].
Qed.
Print Assumptions C20_exact_counts.

Lemma total_occ_pos f k evs : total_occurrences f k evs <> 0 ->
  exists ev i, In ev evs /\ f (ev_stack ev) i = Some k.
Proof.
  induction evs as [|ev evs IH]; cbn [total_occurrences fold_right]; [congruence|].
  intros H. destruct (Z.eq_dec (occurrences f k (ev_stack ev)) 0) as [E|E].
  - rewrite E, Z.add_0_l in H. destruct (IH H) as (ev' & i & I & Q). exists ev', i. split; [right|]; auto.
  - unfold occurrences in E. destruct (filter _ _) as [|i l] eqn:F; [cbn in E; congruence|].
    assert (I : In i (i :: l)) by (left; auto). rewrite <- F in I. apply filter_In in I.
    destruct I as [_ I]. unfold opt_is in I. destruct (f (ev_stack ev) i) as [k'|] eqn:Q; [|discriminate].
    destruct (pair_eqb_spec k k'); [|discriminate]. subst k'. exists ev, i. split; [left|]; auto.
Qed.

Lemma count_from_empty f k evs : 0 <> (0 + total_occurrences f k evs) mod 2 ^ 64 ->
  total_occurrences f k evs <> 0.
Proof. intros H E. rewrite E in H. apply H. reflexivity. Qed.

(** Every recorded range comes from a really executed branch entry of the
    binary: it starts at that entry's target, ends at the source of the entry
    one position more recent in the stack, is non-empty and at most 1 MiB
    long. *)
Theorem C20_recorded_range matches limit evs b e : events_ok evs ->
  0 <> count_of (sa_range (AppendPerf matches limit evs samples0)) (b, e) ->
  b <= e <= b + 1048576 /\
  exists ev i newer older, In ev evs /\
    nth_error (ev_stack ev) i = Some newer /\ nth_error (ev_stack ev) (S i) = Some older /\
    b_wrong older = false /\ matches (b_to_dso older) = true /\
    b = b_to older /\ e = b_from newer /\ exists j v, (j <= i)%nat /\
    nth_error (ev_stack ev) j = Some v /\ b_wrong v = false.
Proof.
  intros E H. destruct (C20_exact_counts matches limit evs samples0 E) as [R _].
  { split; intros k; cbn; lia. }
  rewrite R in H. cbn [samples0 sa_range count_of aget] in H. apply count_from_empty in H.
  apply total_occ_pos in H. destruct H as (ev & i & I & Q). destruct i as [|i]; [discriminate|].
  unfold range_entry in Q.
  destruct (nth_error (ev_stack ev) i) as [newer|] eqn:N1; [|discriminate].
  destruct (nth_error (ev_stack ev) (S i)) as [older|] eqn:N2; [|discriminate].
  destruct (negb (forallb b_wrong (firstn (S i) (ev_stack ev)))) eqn:A0; [|discriminate].
  destruct (b_wrong older) eqn:A1; [discriminate|].
  destruct (matches (b_to_dso older)) eqn:A2; [|discriminate].
  destruct (b_to older <=? b_from newer) eqn:A3; [|discriminate].
  destruct (b_from newer - b_to older <=? 1048576) eqn:A4; [|discriminate].
  match type of Q with (if ?c then _ else _) = _ => destruct c; [|discriminate] end.
  inversion Q; subst. split; [lia|]. exists ev, i, newer, older. repeat (split; auto).
  assert (V : exists v, In v (firstn (S i) (ev_stack ev)) /\ b_wrong v = false).
  { clear - A0. apply negb_true_iff in A0. induction (firstn (S i) (ev_stack ev)) as [|v l IH]; [discriminate|].
    cbn in A0. destruct (b_wrong v) eqn:Q; [|exists v; split; [left|]; auto].
    destruct (IH A0) as (v' & J & K). exists v'. split; [right|]; auto. }
  destruct V as (v & V1 & V2). apply In_nth_error in V1. destruct V1 as [j Hj].
  assert (JL : (j < S i)%nat).
  { assert (j < length (firstn (S i) (ev_stack ev)))%nat by (apply nth_error_Some; congruence).
    rewrite firstn_length in H. lia. }
  exists j, v. split; [lia|]. split; auto.
  rewrite <- (firstn_skipn (S i) (ev_stack ev)). rewrite nth_error_app1; auto.
  apply nth_error_Some. congruence.
Qed.
Print Assumptions C20_recorded_range.

(** No wrong-path entry contributes a branch. *)
Theorem C20_recorded_branch matches limit evs f t : events_ok evs ->
  0 <> count_of (sa_branch (AppendPerf matches limit evs samples0)) (f, t) ->
  exists ev i e, In ev evs /\ nth_error (ev_stack ev) i = Some e /\
    b_wrong e = false /\ matches (b_from_dso e) = true /\ matches (b_to_dso e) = true /\
    f = b_from e /\ t = b_to e.
Proof.
  intros E H. destruct (C20_exact_counts matches limit evs samples0 E) as [_ R].
  { split; intros k; cbn; lia. }
  rewrite R in H. cbn [samples0 sa_branch count_of aget] in H. apply count_from_empty in H.
  apply total_occ_pos in H. destruct H as (ev & i & I & Q). unfold branch_of in Q.
  destruct (nth_error (ev_stack ev) i) as [e|] eqn:N; [|discriminate].
  destruct (matches (b_from_dso e)) eqn:A1; [|discriminate].
  destruct (matches (b_to_dso e)) eqn:A2; [|discriminate].
  destruct (newest_valid (ev_stack ev) i) eqn:A3.
  - inversion Q; subst. exists ev, i, e. repeat (split; auto).
    unfold newest_valid in A3. rewrite N in A3. destruct (b_wrong e); auto.
    rewrite andb_false_r in A3. discriminate.
  - destruct (range_entry matches limit (ev_stack ev) i) as [r|] eqn:A4; [|discriminate].
    inversion Q; subst. exists ev, i, e. repeat (split; auto).
    destruct i as [|i]; [discriminate|]. unfold range_entry in A4. rewrite N in A4.
    destruct (nth_error (ev_stack ev) i); [|discriminate].
    destruct (b_wrong e); auto. rewrite andb_false_r in A4. discriminate.
Qed.
Print Assumptions C20_recorded_branch.

(** When all wrong-path entries of a stack are at its top, the range also ends
    at the source of a really executed branch. *)
Definition wrong_only_on_top (st : list branch_entry) : Prop :=
  forall i j a b, (i < j)%nat -> nth_error st i = Some a -> nth_error st j = Some b ->
    b_wrong b = true -> b_wrong a = true.

Theorem C20_range_end_valid_partial matches limit evs b e : events_ok evs ->
  Forall (fun ev => wrong_only_on_top (ev_stack ev)) evs ->
  0 <> count_of (sa_range (AppendPerf matches limit evs samples0)) (b, e) ->
  exists ev i newer older, In ev evs /\
    nth_error (ev_stack ev) i = Some newer /\ nth_error (ev_stack ev) (S i) = Some older /\
    b_wrong newer = false /\ b_wrong older = false /\ b = b_to older /\ e = b_from newer.
Proof.
  intros E W H. destruct (C20_recorded_range matches limit evs b e E H)
    as (_ & ev & i & newer & older & I & N1 & N2 & A & B & C & D & j & v & J & NV & V).
  exists ev, i, newer, older. repeat (split; auto).
  destruct (b_wrong newer) eqn:Q; auto. exfalso.
  rewrite Forall_forall in W. specialize (W ev I).
  destruct (Nat.eq_dec j i) as [->|NE]; [congruence|].
  pose proof (W j i v newer ltac:(lia) NV N1 Q). congruence.
Qed.
Print Assumptions C20_range_end_valid_partial.

(** In general it does not: here the middle entry is wrong-path, yet its source
    0x900 ends the recorded range. *)
Definition mk f t w := {| b_from := f; b_to := t; b_from_dso := 1; b_to_dso := 1; b_wrong := w |}.
Definition ex_wrong : sample_event :=
  {| ev_dso := 1; ev_offset := 0; ev_stack := [mk 4096 8192 false; mk 2304 2560 true; mk 1024 2048 false] |}.
Theorem C20_wrong_path_range_refuted :
  events_ok [ex_wrong] /\
  count_of (sa_range (AppendPerf (fun _ => true) 4096 [ex_wrong] samples0)) (2048, 2304) = 1 /\
  forall i e, nth_error (ev_stack ex_wrong) i = Some e -> b_from e = 2304 -> b_wrong e = true.
Proof.
  split; [|split].
  - repeat constructor; cbn; lia.
  - reflexivity.
  - intros [|[|[|i]]] e N F; cbn in N; inversion N; subst; cbn in *; try congruence.
    destruct i; discriminate.
Qed.
Print Assumptions C20_wrong_path_range_refuted.

(** The cache of binary matches is transparent as long as a DSO pointer denotes
    one name ... *)
Fixpoint match_all (answer : Z -> bool) (cache : list (Z * bool)) (calls : list (Z * Z)) : list bool :=
  match calls with
  | [] => []
  | (ptr, name) :: rest =>
      let (b, cache) := MatchBinary answer cache ptr name in b :: match_all answer cache rest
  end.

Theorem C20_match_cache_transparent answer name_of ptrs :
  match_all answer [] (map (fun p => (p, name_of p)) ptrs) = map (fun p => answer (name_of p)) ptrs.
Proof.
  assert (G : forall cache, (forall p b, aget Z.eqb p cache = Some b -> b = answer (name_of p)) ->
    match_all answer cache (map (fun p => (p, name_of p)) ptrs) = map (fun p => answer (name_of p)) ptrs).
  { induction ptrs as [|p ptrs IH]; intros cache H; [reflexivity|].
    cbn [map match_all]. unfold MatchBinary. destruct (aget Z.eqb p cache) as [b|] eqn:E.
    - rewrite (H _ _ E), IH; auto.
    - rewrite IH; auto. intros p' b. rewrite (aget_aset Z.eqb Z_eqb_reflect).
      destruct (Z_eqb_reflect p' p); [subst; intros Q; inversion Q; auto|apply H]. }
  apply G. discriminate.
Qed.
Print Assumptions C20_match_cache_transparent.

(** ... but the cache outlives the file whose parser owns the pointers, so a
    second Append in which a pointer denotes another DSO gets the old answer. *)
Theorem C20_match_cache_across_files_refuted :
  exists answer calls, match_all answer [] calls <> map (fun c => answer (snd c)) calls.
Proof. exists (fun n => n =? 7), [(64, 7); (64, 8)]. cbn. discriminate. Qed.
Print Assumptions C20_match_cache_across_files_refuted.

Definition ex_good : sample_event :=
  {| ev_dso := 1; ev_offset := 5; ev_stack := [mk 2304 2560 true; mk 4096 8192 false; mk 1024 2048 false; mk 512 900 false] |}.
Example C20_nonvacuous :
  events_ok [ex_good; ex_good] /\ wrong_only_on_top (ev_stack ex_good) /\
  count_of (sa_range (AppendPerf (fun _ => true) 4096 [ex_good; ex_good] samples0)) (2048, 4096) = 2 /\
  count_of (sa_branch (AppendPerf (fun _ => true) 4096 [ex_good] samples0)) (4096, 8192) = 1.
Proof.
  split; [repeat constructor; cbn; lia|]. split; [|split; reflexivity].
  intros i j a b L Na Nb W. destruct i as [|i]; [cbn in Na; inversion Na; auto|].
  destruct j as [|[|[|[|j]]]]; cbn in Nb; try lia; inversion Nb; subst; cbn in W; try discriminate.
  destruct j; discriminate.
Qed.
