From Verif Require Import Base SampleModel SampleProofs LbrModel LbrSpec.

Definition entry_ok (e : branch_entry) : Prop :=
  0 <= b_from e < 2 ^ 64 /\ 0 <= b_to e < 2 ^ 64.

Section P.
  Variable matches : Z -> bool.
  Variable limit : Z.

  Lemma count_madd m k k' : count_of (madd pair_eqb m (k, 1)) k'
    = if pair_eqb k' k then u64 (count_of m k + 1) else count_of m k'.
  Proof. exact (cnt_madd pair_eqb pair_eqb_spec m (k, 1) k'). Qed.

  Definition occ_from (f : list branch_entry -> nat -> option (Z * Z)) k st i n : Z :=
    zlen (filter (fun i => opt_is (f st i) k) (seq i n)).

  Lemma occ_from_S f k st i n :
    occ_from f k st i (S n) = (if opt_is (f st i) k then 1 else 0) + occ_from f k st (S i) n.
  Proof.
    unfold occ_from. cbn [seq filter]. destruct (opt_is (f st i) k); [rewrite zlen_cons|]; lia.
  Qed.

  Lemma u64_add_step a b c : u64 (u64 (a + b) + c) = u64 (a + (b + c)).
  Proof. unfold u64. rewrite Zplus_mod_idemp_l. f_equal. lia. Qed.

  Lemma lbr_loop_spec st : Forall entry_ok st -> forall rest pre prev i rm bm rm' bm',
    st = pre ++ prev :: rest -> i = S (length pre) ->
    forallb b_wrong (pre ++ [prev]) = false ->
    lbr_loop matches limit st i prev rest rm bm = (rm', bm') ->
    (forall k, u64 (count_of rm k) = count_of rm k) ->
    (forall k, u64 (count_of bm k) = count_of bm k) ->
    (forall k, count_of rm' k = u64 (count_of rm k + occ_from (range_entry matches limit) k st i (length rest))) /\
    (forall k, count_of bm' k = u64 (count_of bm k + occ_from (branch_of matches limit) k st i (length rest))).
  Proof.
    intros EO. induction rest as [|e rest IH]; intros pre prev i rm bm rm' bm' E I W L UR UB_.
    - cbn in L. inversion L; subst. unfold occ_from; cbn [length seq filter]. change (zlen (@nil nat)) with 0.
      split; intros k; rewrite Z.add_0_r; symmetry; auto.
    - assert (E' : st = (pre ++ [prev]) ++ e :: rest) by (rewrite <- app_assoc; exact E).
      assert (NJ : nth_error st (length pre) = Some prev).
      { rewrite E. rewrite nth_error_app2 by lia. rewrite Nat.sub_diag. reflexivity. }
      assert (NI : nth_error st i = Some e).
      { rewrite E', I. rewrite nth_error_app2 by (rewrite app_length; cbn; lia).
        rewrite app_length. cbn [length].
        replace (S (length pre) - (length pre + 1))%nat with 0%nat by lia. reflexivity. }
      assert (FI : firstn i st = pre ++ [prev]).
      { rewrite E', I. replace (S (length pre)) with (length (pre ++ [prev])) by (rewrite app_length; cbn; lia).
        rewrite firstn_app, Nat.sub_diag, firstn_O, app_nil_r, firstn_all. reflexivity. }
      assert (W' : forallb b_wrong ((pre ++ [prev]) ++ [e]) = false).
      { rewrite forallb_app, W. reflexivity. }
      assert (I' : S i = S (length (pre ++ [prev]))) by (rewrite app_length; cbn; lia).
      assert (OKe : entry_ok e /\ entry_ok prev).
      { rewrite Forall_forall in EO. split; apply EO; rewrite E; apply in_or_app; cbn; auto. }
      destruct OKe as [[e1 e2] [p1 p2]].
      assert (NV : newest_valid st i = false) by (unfold newest_valid; rewrite FI, W; reflexivity).
      (* the range entry at i *)
      assert (DT : dup_top limit st i = (i =? 1)%nat && (b_from prev =? b_from e) && (b_to prev =? b_to e)
                     && (limit <? (b_from prev - b_to prev) mod 2 ^ 64)).
      { destruct pre as [|p0 pre].
        - cbn [length] in I. subst i. cbn [app] in E. rewrite E. cbn [dup_top]. reflexivity.
        - cbn [length] in I. subst i. cbn [dup_top Nat.eqb andb]. reflexivity. }
      assert (RE : range_entry matches limit st i =
        if negb (b_wrong e) && matches (b_to_dso e) && negb (dup_top limit st i)
           && negb ((b_from prev <? b_to e) || (1048576 <? u64 (b_from prev - b_to e)))
        then Some (b_to e, b_from prev) else None).
      { unfold range_entry. rewrite I at 1. cbv iota. rewrite NJ, NI, FI, W, <- DT.
        replace (negb ((b_from prev <? b_to e) || (1048576 <? u64 (b_from prev - b_to e))))
          with ((b_to e <=? b_from prev) && (b_from prev - b_to e <=? 1048576)).
        - cbn [negb andb]. destruct (b_wrong e), (matches (b_to_dso e)), (dup_top limit st i),
            (b_to e <=? b_from prev), (b_from prev - b_to e <=? 1048576); reflexivity.
        - destruct (b_from prev <? b_to e) eqn:Q; cbn [orb negb].
          + assert (b_to e <=? b_from prev = false) as -> by lia. reflexivity.
          + assert (b_to e <=? b_from prev = true) as -> by lia. cbn [andb].
            unfold u64. rewrite Z.mod_small by (change w64 with (2 ^ 64); lia). lia. }
      assert (BE : branch_of matches limit st i =
        if matches (b_from_dso e) && match range_entry matches limit st i with Some _ => true | None => false end
        then Some (b_from e, b_to e) else None).
      { unfold branch_of. rewrite NI, NV. cbn [orb]. rewrite RE.
        destruct (matches (b_from_dso e)), (matches (b_to_dso e)); cbn [andb]; auto;
          rewrite ?andb_false_r; cbn; auto; destruct (negb (b_wrong e)); reflexivity. }
      cbn [length]. 
      cbn [lbr_loop] in L.
      assert (SKIP : range_entry matches limit st i = None ->
        lbr_loop matches limit st (S i) e rest rm bm = (rm', bm') ->
        (forall k, count_of rm' k = u64 (count_of rm k + occ_from (range_entry matches limit) k st i (S (length rest)))) /\
        (forall k, count_of bm' k = u64 (count_of bm k + occ_from (branch_of matches limit) k st i (S (length rest))))).
      { intros N0 L0. destruct (IH _ _ _ _ _ _ _ E' I' W' L0 UR UB_) as [A B].
        split; intros k; rewrite occ_from_S; [rewrite N0|rewrite BE, N0; rewrite andb_false_r];
          cbn [opt_is]; [apply A|apply B]. }
      destruct (b_wrong e) eqn:Q1.
      { apply SKIP; auto. }
      destruct (matches (b_to_dso e)) eqn:Q2; cbn [negb andb] in *.
      2: { apply SKIP; auto. }
      destruct (dup_top limit st i) eqn:Q3; cbn [negb andb] in *.
      { apply SKIP; auto. }
      destruct ((b_from prev <? b_to e) || (1048576 <? u64 (b_from prev - b_to e))) eqn:Q4; cbn [negb] in *.
      { apply SKIP; auto. }
      cbv zeta in L.
      assert (UR' : forall k, u64 (count_of (madd pair_eqb rm ((b_to e, b_from prev), 1)) k)
                    = count_of (madd pair_eqb rm ((b_to e, b_from prev), 1)) k).
      { intros k. rewrite count_madd. destruct (pair_eqb k _); auto. unfold u64. apply Z.mod_mod. unfold w64; lia. }
      set (bm2 := if matches (b_from_dso e) then madd pair_eqb bm ((b_from e, b_to e), 1) else bm) in *.
      assert (UB' : forall k, u64 (count_of bm2 k) = count_of bm2 k).
      { intros k. unfold bm2. destruct (matches (b_from_dso e)); auto.
        rewrite count_madd. destruct (pair_eqb k _); auto. unfold u64. apply Z.mod_mod. unfold w64; lia. }
      destruct (IH _ _ _ _ _ _ _ E' I' W' L UR' UB') as [A B].
      split; intros k; rewrite occ_from_S.
      + rewrite A, RE, count_madd. cbn [opt_is]. destruct (pair_eqb_spec k (b_to e, b_from prev)) as [->|N].
        * apply u64_add_step.
        * reflexivity.
      + rewrite B, BE, RE. unfold bm2. destruct (matches (b_from_dso e)); cbn [andb opt_is]; auto.
        rewrite count_madd. destruct (pair_eqb_spec k (b_from e, b_to e)) as [->|N].
        * apply u64_add_step.
        * reflexivity.
  Qed.

  Lemma start_index_spec st :
    forallb b_wrong (firstn (start_index st) st) = true /\
    (start_index st <= length st)%nat /\
    match nth_error st (start_index st) with Some e => b_wrong e = false | None => True end.
  Proof.
    induction st as [|e st IH]; cbn [start_index]; [cbn; auto|].
    destruct (b_wrong e) eqn:Q.
    - destruct IH as (A & B & C). split; [cbn; rewrite Q, A; reflexivity|]. split; [cbn; lia|exact C].
    - cbn. split; auto. split; [lia|auto].
  Qed.

  Lemma firstn_app_exact {A} (a b : list A) n : n = length a -> firstn n (a ++ b) = a.
  Proof. intros ->. rewrite firstn_app, Nat.sub_diag, firstn_O, app_nil_r, firstn_all. reflexivity. Qed.

  Lemma occ_prefix f k st n : (forall i, (i < n)%nat -> f st i = None) ->
    (n <= length st)%nat ->
    occurrences f k st = occ_from f k st n (length st - n).
  Proof.
    intros N L. unfold occurrences, occ_from.
    replace (length st) with (n + (length st - n))%nat at 1 by lia.
    rewrite seq_app, filter_app.
    assert (filter (fun i => opt_is (f st i) k) (seq 0 n) = []) as ->; [|reflexivity].
    assert (G : forall l, (forall i, In i l -> (i < n)%nat) -> filter (fun i => opt_is (f st i) k) l = []).
    { induction l as [|x l IH]; intros H; auto. cbn [filter]. rewrite N by (apply H; left; auto).
      cbn [opt_is]. apply IH. intros; apply H; right; auto. }
    apply G. intros i Hi. apply in_seq in Hi. lia.
  Qed.

  Lemma append_event_spec s ev : Forall entry_ok (ev_stack ev) ->
    (forall k, u64 (count_of (sa_range s) k) = count_of (sa_range s) k) ->
    (forall k, u64 (count_of (sa_branch s) k) = count_of (sa_branch s) k) ->
    let s' := append_event matches limit s ev in
    (forall k, count_of (sa_range s') k
       = u64 (count_of (sa_range s) k + occurrences (range_entry matches limit) k (ev_stack ev))) /\
    (forall k, count_of (sa_branch s') k
       = u64 (count_of (sa_branch s) k + occurrences (branch_of matches limit) k (ev_stack ev))) /\
    sa_addr s' = (if matches (ev_dso ev) then madd Z.eqb (sa_addr s) (ev_offset ev, 1) else sa_addr s).
  Proof.
    intros EO UR UB_. cbn zeta. unfold append_event. set (st := ev_stack ev) in *. set (si := start_index st).
    destruct (start_index_spec st) as (A & B & C). fold si in A, B, C.
    assert (WPRE : forall i, (i < si)%nat -> forallb b_wrong (firstn i st) = true /\
               forall e, nth_error st i = Some e -> b_wrong e = true).
    { intros i Hi. rewrite forallb_forall in A. split.
      - apply forallb_forall. intros x Hx. apply A.
        rewrite <- (firstn_skipn i (firstn si st)). apply in_or_app. left.
        rewrite firstn_firstn. replace (Nat.min i si) with i by lia. exact Hx.
      - intros e He. apply A. rewrite <- (firstn_skipn si st) in He.
        assert (LF : length (firstn si st) = si) by (rewrite firstn_length; lia).
        rewrite nth_error_app1 in He by lia. apply nth_error_In in He. exact He. }
    assert (RN : forall i, (i < S si)%nat -> range_entry matches limit st i = None).
    { intros [|j] Hj; [reflexivity|]. cbn [range_entry].
      destruct (nth_error st j); auto. destruct (nth_error st (S j)); auto.
      assert (forallb b_wrong (firstn (S j) st) = true) as ->; [|reflexivity].
      apply forallb_forall. intros x Hx. rewrite forallb_forall in A. apply A.
      rewrite <- (firstn_skipn (S j) (firstn si st)). apply in_or_app. left.
      rewrite firstn_firstn. replace (Nat.min (S j) si) with (S j) by lia. exact Hx. }
    assert (BN : forall i, (i < si)%nat -> branch_of matches limit st i = None).
    { intros i Hi. unfold branch_of. destruct (nth_error st i) as [e|] eqn:Q; auto.
      destruct (WPRE i Hi) as [W1 W2]. unfold newest_valid. rewrite Q, (W2 e Q).
      cbn [negb]. rewrite andb_false_r. rewrite RN by lia. cbn [orb]. rewrite andb_false_r. reflexivity. }
    destruct (skipn si st) as [|e rest] eqn:SK.
    - cbn [sa_range sa_branch sa_addr].
      assert (LS : length st = si).
      { assert (length (skipn si st) = 0%nat) by (rewrite SK; auto). rewrite skipn_length in H. lia. }
      split; [|split; [|reflexivity]]; intros k.
      + rewrite (occ_prefix _ k st (length st)) by (intros; try apply RN; lia).
        rewrite Nat.sub_diag. unfold occ_from; cbn [length seq filter]. change (zlen (@nil nat)) with 0. rewrite Z.add_0_r. auto.
      + rewrite (occ_prefix _ k st (length st)) by (intros; try apply BN; lia).
        rewrite Nat.sub_diag. unfold occ_from; cbn [length seq filter]. change (zlen (@nil nat)) with 0. rewrite Z.add_0_r. auto.
    - assert (ES : st = firstn si st ++ e :: rest) by (rewrite <- SK, firstn_skipn; auto).
      assert (LF : length (firstn si st) = si) by (rewrite firstn_length; lia).
      assert (NE : nth_error st si = Some e).
      { rewrite ES. rewrite nth_error_app2 by lia. rewrite LF, Nat.sub_diag. reflexivity. }
      rewrite NE in C.
      set (bm := if matches (b_to_dso e) && matches (b_from_dso e)
                 then madd pair_eqb (sa_branch s) ((b_from e, b_to e), 1) else sa_branch s).
      destruct (lbr_loop matches limit st (S si) e rest (sa_range s) bm) as [rm' bm'] eqn:L.
      cbn [sa_range sa_branch sa_addr].
      assert (UB' : forall k, u64 (count_of bm k) = count_of bm k).
      { intros k. unfold bm. destruct (matches (b_to_dso e) && matches (b_from_dso e)); auto.
        rewrite count_madd. destruct (pair_eqb k _); auto. unfold u64. apply Z.mod_mod. unfold w64; lia. }
      assert (WW : forallb b_wrong (firstn si st ++ [e]) = false).
      { rewrite forallb_app. cbn. rewrite C. rewrite andb_false_r. reflexivity. }
      destruct (lbr_loop_spec st EO rest (firstn si st) e (S si) (sa_range s) bm rm' bm' ES ltac:(lia) WW L UR UB')
        as [R1 R2].
      assert (LL : (length st = S si + length rest)%nat).
      { rewrite ES at 1. rewrite app_length. cbn. lia. }
      split; [|split; [|reflexivity]]; intros k.
      + rewrite R1. rewrite (occ_prefix _ k st (S si)) by (auto; lia).
        replace (length st - S si)%nat with (length rest) by lia. reflexivity.
      + rewrite R2. rewrite (occ_prefix _ k st si) by (auto; lia).
        replace (length st - si)%nat with (S (length rest)) by lia. rewrite occ_from_S.
        assert (BE : branch_of matches limit st si = if matches (b_to_dso e) && matches (b_from_dso e)
                       then Some (b_from e, b_to e) else None).
        { unfold branch_of. rewrite NE. unfold newest_valid. rewrite A, NE, C. cbn [negb andb orb].
          rewrite (andb_comm (matches (b_to_dso e))). rewrite andb_true_r. reflexivity. }
        rewrite BE. unfold bm. destruct (matches (b_to_dso e) && matches (b_from_dso e)); cbn [opt_is]; auto.
        rewrite count_madd. destruct (pair_eqb_spec k (b_from e, b_to e)) as [->|N].
        * apply u64_add_step.
        * reflexivity.
  Qed.

  Lemma AppendPerf_spec evs : forall s, Forall (fun ev => Forall entry_ok (ev_stack ev)) evs ->
    (forall k, u64 (count_of (sa_range s) k) = count_of (sa_range s) k) ->
    (forall k, u64 (count_of (sa_branch s) k) = count_of (sa_branch s) k) ->
    (forall k, count_of (sa_range (AppendPerf matches limit evs s)) k
       = u64 (count_of (sa_range s) k + total_occurrences (range_entry matches limit) k evs)) /\
    (forall k, count_of (sa_branch (AppendPerf matches limit evs s)) k
       = u64 (count_of (sa_branch s) k + total_occurrences (branch_of matches limit) k evs)).
  Proof.
    unfold AppendPerf. induction evs as [|ev evs IH]; intros s F UR UB_; cbn [fold_left total_occurrences fold_right].
    - split; intros k; rewrite Z.add_0_r; auto.
    - inversion F; subst. destruct (append_event_spec s ev) as (A & B & _); auto. cbn zeta in *.
      assert (UU : forall x, u64 (u64 x) = u64 x) by (intros; unfold u64; apply Z.mod_mod; unfold w64; lia).
      destruct (IH (append_event matches limit s ev)) as (A' & B'); auto.
      { intros k. rewrite A. auto. }
      { intros k. rewrite B. auto. }
      split; intros k; [rewrite A', A|rewrite B', B]; apply u64_add_step.
  Qed.
End P.
