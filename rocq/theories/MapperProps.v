(** Properties C34, C35, C47, C50: basic block lookup, fall-through paths and
    function selection of the Propeller address mapper. *)
From Verif Require Import Base SymbolModel SymbolProofs ElideModel StdSearch MapperModel MapperSpec MapperProofs.
From Coq Require Import Permutation Sorting.Sorted.

(** * C34 *)

(** Strictly inside a block: that block, whatever the direction. *)
Theorem C34_inside dbg mp a dir i :
  layout_ok mp -> (i < blk_count mp)%nat -> blk_start mp i < a < blk_end mp i ->
  FindBb dbg mp a dir = Ok (Some i).
Proof.
  intros L Hi Ha. destruct (FindBb_cases dbg mp a dir L) as [[j [Hj [Hc [_ E]]]]|[[k [Hk [Hs [Hx E]]]]|[Hn _]]].
  - rewrite E. do 2 f_equal. destruct (Nat.lt_trichotomy i j) as [H|[->|H]]; [|reflexivity|].
    + pose proof (proj2 L i j ltac:(lia)). lia.
    + pose proof (proj2 L j i ltac:(lia)). lia.
  - exfalso. destruct (Nat.lt_trichotomy i k) as [H|[->|H]].
    + pose proof (proj2 L i k ltac:(lia)). lia.
    + lia.
    + specialize (Hx i ltac:(lia)). lia.
  - exfalso. apply (Hn i Hi). unfold contains. lia.
Qed.
Print Assumptions C34_inside.

(** Branch source: the one block containing the address. *)
Theorem C34_source dbg mp a i :
  layout_ok mp -> (i < blk_count mp)%nat -> contains mp i a ->
  FindBb dbg mp a DFrom = Ok (Some i).
Proof.
  intros L Hi Hc. unfold contains in Hc.
  destruct (Z.eq_dec (blk_start mp i) a) as [E0|]; [|apply C34_inside; auto; lia].
  destruct (FindBb_cases dbg mp a DFrom L) as [[j [_ [_ [Hno _]]]]|[[k [Hk [Hs [Hx E]]]]|[Hn _]]].
  - exfalso. exact (Hno i Hi E0).
  - assert (k = i) as ->.
    { destruct (Nat.lt_trichotomy i k) as [H|[->|H]]; [|reflexivity|].
      + pose proof (proj2 L i k ltac:(lia)). lia.
      + specialize (Hx i ltac:(lia)). lia. }
    rewrite E. replace (blk_end mp i =? a) with false by lia. rewrite andb_false_r. reflexivity.
  - exfalso. exact (proj1 (Hn i Hi) E0).
Qed.
Print Assumptions C34_source.

(** Branch target: the block the address is strictly inside of, or the first
    of the run of blocks of one function at that address. *)
Theorem C34_target dbg mp a j :
  layout_ok mp ->
  (FindBb dbg mp a DTo = Ok (Some j) <->
   ((j < blk_count mp)%nat /\ blk_start mp j < a < blk_end mp j) \/ first_of_run mp a j).
Proof.
  intros L. destruct (FindBb_cases dbg mp a DTo L) as [[i [Hi [Hc [Hno E]]]]|[[k [Hk [Hs [Hx E]]]]|[Hn E]]]; rewrite E.
  - split.
    + intros Ej; injection Ej as <-. left. auto.
    + intros [[Hj Hcj]|[k [Hk [Hs _]]]].
      * do 2 f_equal. destruct (Nat.lt_trichotomy i j) as [H|[->|H]]; [|reflexivity|].
        -- pose proof (proj2 L i j ltac:(lia)). lia.
        -- pose proof (proj2 L j i ltac:(lia)). lia.
      * exfalso. exact (Hno k ltac:(lia) Hs).
  - destruct (first_at_spec mp a (blk_func mp k) k L Hk) as [F1 [F2 F3]].
    set (q := first_at (mp_funcs mp) (mp_handles mp) a (blk_func mp k) k) in *.
    assert (R : first_of_run mp a q).
    { exists k. split; [lia|]. split; [exact Hs|]. split.
      { intros x Hx'. specialize (Hx x Hx'). lia. }
      split.
      { intros x Hq. destruct (Nat.eq_dec x k) as [->|]; [auto|]. apply F2. lia. }
      exact F3. }
    split.
    + intros Ej; injection Ej as <-. right. exact R.
    + intros [[Hj Hcj]|[k' [Hk' [Hs' [Hx' [Hr' Hp']]]]]].
      * exfalso. destruct (Nat.lt_trichotomy j k) as [H|[->|H]].
        -- pose proof (proj2 L j k ltac:(lia)). lia.
        -- lia.
        -- specialize (Hx j ltac:(lia)). lia.
      * assert (k' = k) as ->.
        { destruct (Nat.lt_trichotomy k' k) as [H|[->|H]]; [|reflexivity|].
          - exfalso. exact (Hx' k ltac:(lia) Hs).
          - specialize (Hx k' ltac:(lia)). lia. }
        do 2 f_equal. destruct (Nat.lt_trichotomy q j) as [H|[->|H]]; [|reflexivity|].
        -- exfalso. destruct j as [|p]; [lia|]. destruct (F2 p ltac:(lia)) as [G1 G2].
           destruct (Hp' p eq_refl); auto.
        -- exfalso. destruct q as [|p]; [lia|]. destruct (Hr' p ltac:(lia)) as [G1 G2].
           destruct (F3 p eq_refl); auto.
  - split; [discriminate|]. intros [[Hj Hcj]|[k [Hk [Hs _]]]]; exfalso.
    + apply (Hn j Hj). unfold contains. lia.
    + exact (proj1 (Hn k ltac:(lia)) Hs).
Qed.
Print Assumptions C34_target.

(** Nothing is found exactly when no block contains or starts at the address. *)
Theorem C34_outside dbg mp a dir :
  layout_ok mp ->
  (FindBb dbg mp a dir = Ok None <->
   forall i, (i < blk_count mp)%nat -> blk_start mp i <> a /\ ~ contains mp i a).
Proof.
  intros L. destruct (FindBb_cases dbg mp a dir L) as [[i [Hi [Hc [Hno E]]]]|[[k [Hk [Hs [Hx E]]]]|[Hn E]]]; rewrite E.
  - split; [discriminate|]. intros H. exfalso. apply (H i Hi). unfold contains. lia.
  - split.
    + destruct dir; [destruct (dbg && (blk_end mp k =? a))|]; discriminate.
    + intros H. exfalso. exact (proj1 (H k Hk) Hs).
  - tauto.
Qed.
Print Assumptions C34_outside.

(** A found block contains the address, or is an empty block there. *)
Theorem C34_found dbg mp a dir i :
  layout_ok mp -> FindBb dbg mp a dir = Ok (Some i) ->
  (i < blk_count mp)%nat /\ (contains mp i a \/ (blk_start mp i = a /\ blk_end mp i = a)).
Proof.
  intros L F. destruct (FindBb_cases dbg mp a dir L) as [[j [Hj [Hc [Hno E]]]]|[[k [Hk [Hs [Hx E]]]]|[Hn E]]]; rewrite E in F.
  - injection F as <-. unfold contains. split; [exact Hj|left; lia].
  - assert (G : (i < blk_count mp)%nat /\ blk_start mp i = a).
    { destruct dir.
      - destruct (dbg && (blk_end mp k =? a)); [discriminate|]. injection F as <-. auto.
      - destruct (first_at_spec mp a (blk_func mp k) k L Hk) as [F1 [F2 F3]]. injection F as <-.
        split; [lia|]. set (q := first_at _ _ _ _ _) in *. destruct (Nat.eq_dec q k) as [->|]; [exact Hs|]. apply F2; lia. }
    destruct G as [G1 G2]. pose proof (proj1 L i G1). split; [exact G1|]. unfold contains. lia.
  - discriminate.
Qed.
Print Assumptions C34_found.

(** The list of blocks that Build makes: every block of every selected
    function once, in address order. *)
Lemma Select_sorted order ot fs im hot sel d :
  binary_ok fs -> addrs_ok hot ->
  SelectFunctions order ot fs im hot = Ok (sel, d) ->
  StronglySorted lt sel /\ forall i, In i sel -> (i < length fs)%nat.
Proof.
  intros B Ha. unfold SelectFunctions. cbv zeta.
  assert (G : forall base, StronglySorted lt base -> (forall i, In i base -> (i < length fs)%nat) ->
    Ok (FilterDuplicateNameFunctions order fs im
      (if ot then FilterNonTextFunctions im (FilterNoNameFunctions im base) else FilterNoNameFunctions im base)) = Ok (sel, d) ->
    StronglySorted lt sel /\ forall i, In i sel -> (i < length fs)%nat).
  { intros base Hs Hr. set (b2 := if ot then _ else _).
    assert (H2 : StronglySorted lt b2 /\ forall i, In i b2 -> (i < length fs)%nat).
    { unfold b2. destruct ot; unfold FilterNonTextFunctions, FilterNoNameFunctions;
        (split; [repeat apply sorted_filter; exact Hs|]); intros i Hi; apply Hr;
        repeat (apply filter_In in Hi as [Hi _]); exact Hi. }
    destruct H2 as [H2 H3]. unfold FilterDuplicateNameFunctions. intros E.
    assert (Es : sel = fst (fold_left (fun s e => filter_dup_step fs e s)
                 (order (name_to_function_index im b2)) (b2, 0))) by (injection E as ->; reflexivity).
    subst sel. split; [apply filter_dup_sorted; exact H2|].
    intros i Hi. apply filter_dup_sel in Hi as [Hi _]. auto. }
  destruct hot as [addrs|]; cbn [obind].
  - destruct (CalculateHotFunctions fs addrs) as [base| |] eqn:E; cbn [obind]; try discriminate.
    destruct (hot_loop_spec fs addrs [] base B Ha E) as [H1 H2]. apply G.
    + apply H1. constructor.
    + intros i Hi. apply H2 in Hi as [[]|[a [Hin Hf]]].
      apply (hot_function_of_spec fs a (Some i) B (Ha a Hin) Hf). reflexivity.
  - apply G; [apply sorted_seq|]. intros i Hi. apply in_seq in Hi. lia.
Qed.

Theorem C34_blocks order ot fs im hot mp :
  binary_ok fs -> addrs_ok hot ->
  BuildMapper order ot fs im hot = Ok mp ->
  layout_ok mp /\ NoDup (mp_handles mp) /\
  forall h, In h (mp_handles mp) <->
    In (bh_func h) (mp_selected mp) /\ (bh_bb h < nents fs (bh_func h))%nat.
Proof.
  intros B Ha. unfold BuildMapper.
  destruct (SelectFunctions order ot fs im hot) as [[sel d]| |] eqn:E; cbn [obind]; try discriminate.
  destruct (Select_sorted _ _ _ _ _ _ _ B Ha E) as [S1 S2].
  destruct (build_loop fs None sel []) as [hs| |] eqn:Eb; cbn [obind]; try discriminate.
  intros Em; injection Em as <-. apply build_loop_ok in Eb. cbn [app] in Eb. subst hs. cbn [mp_handles mp_selected].
  split; [apply layout_from_binary; assumption|]. split; [apply handles_NoDup; exact S1|].
  intros h. apply In_handles_of.
Qed.
Print Assumptions C34_blocks.

(** Building never fails on a well-formed binary whose functions have blocks. *)
Theorem C34_build_succeeds order ot fs im hot :
  binary_ok fs -> addrs_ok hot ->
  (forall i, (i < length fs)%nat -> fm_entries (nth i fs no_func) <> []) ->
  exists mp, BuildMapper order ot fs im hot = Ok mp.
Proof.
  intros B Ha Hne. unfold BuildMapper.
  assert (exists sd, SelectFunctions order ot fs im hot = Ok sd) as [[sel d] E].
  { unfold SelectFunctions. cbv zeta. destruct hot as [addrs|]; cbn [obind]; [|eauto].
    unfold CalculateHotFunctions. destruct (hot_loop_total fs addrs [] Hne) as [s ->]. cbn [obind]. eauto. }
  rewrite E. cbn [obind]. destruct (Select_sorted _ _ _ _ _ _ _ B Ha E) as [S1 S2].
  rewrite build_loop_total.
  - cbn [obind]. eauto.
  - intros l El; discriminate.
  - destruct B as [_ [_ [_ [B3 _]]]]. clear E. induction S1 as [|x l Hs IH Hf]; constructor.
    + apply IH. intros i Hi. apply S2. right; exact Hi.
    + rewrite Forall_forall in *. intros y Hy. apply B3. specialize (Hf y Hy).
      specialize (S2 y (or_intror Hy)). lia.
Qed.
Print Assumptions C34_build_succeeds.

(** A function with an empty last block: a branch source at the end of the
    function, where no block contains the address, is mapped to that empty
    block (with DCHECKs the process aborts). *)
Definition tail_empty : mapper :=
  Mapper [0%nat] [FuncMap 16 [BBEntry 0 8 true false; BBEntry 8 0 false false]]
    [BbHandle 0 0; BbHandle 0 1].
Theorem C34_empty_source_refuted :
  layout_ok tail_empty /\
  (forall i, (i < blk_count tail_empty)%nat -> ~ contains tail_empty i 24) /\
  FindBb false tail_empty 24 DFrom = Ok (Some 1%nat) /\ FindBb true tail_empty 24 DFrom = Abort.
Proof.
  split; [|split; [|split; vm_compute; reflexivity]].
  - split.
    + intros [|[|i]] Hi; [vm_compute; intuition congruence..|]. unfold blk_count in Hi. cbn in Hi. lia.
    + intros i j Hij. unfold blk_count in Hij. cbn in Hij. assert (i = 0%nat /\ j = 1%nat) as [-> ->] by lia.
      vm_compute. discriminate.
  - intros i Hi. unfold blk_count in Hi. cbn in Hi. assert (i = 0%nat \/ i = 1%nat) as [-> | ->] by lia;
      unfold contains; vm_compute; intuition congruence.
Qed.
Print Assumptions C34_empty_source_refuted.

(** The example in the header comment of the mapper (lines 143-160):
    foo.5 .. foo.10 and bar.0. *)
Definition header_binary : list func_map :=
  [FuncMap 16 [BBEntry 0 6 true false; BBEntry 6 4 true false; BBEntry 10 0 true false;
               BBEntry 10 0 true false; BBEntry 10 6 false true; BBEntry 16 0 false false];
   FuncMap 32 [BBEntry 0 16 false true]].
Definition header_names : info_map :=
  [(0%nat, SymInfo [[102]] dot_text); (1%nat, SymInfo [[98]] dot_text)].
Lemma header_binary_ok : binary_ok header_binary.
Proof.
  unfold binary_ok, nents. cbn [header_binary length].
  split; [|split; [|split; [|split]]].
  - intros [|[|f]] H; cbn; lia.
  - intros [|[|f]] b Hf Hb; cbn [nth header_binary fm_entries length] in Hb; [| |lia].
    + destruct b as [|[|[|[|[|[|b]]]]]]; [vm_compute; intuition congruence..|lia].
    + destruct b as [|b]; [vm_compute; intuition congruence|lia].
  - intros [|[|f]] b b' Hf Hb; cbn [nth header_binary fm_entries length] in Hb; [| |lia].
    + destruct b as [|[|[|[|[|b]]]]]; destruct b' as [|[|[|[|[|[|b']]]]]];
        try lia; vm_compute; discriminate.
    + lia.
  - intros f g H. assert (f = 0%nat /\ g = 1%nat) as [-> ->] by lia. vm_compute. reflexivity.
  - intros f g b H Hb. assert (f = 0%nat /\ g = 1%nat) as [-> ->] by lia.
    cbn [nth header_binary fm_entries length] in Hb.
    destruct b as [|[|[|[|[|[|b]]]]]]; [vm_compute; discriminate..|lia].
Qed.
Example C34_nonvacuous :
  exists mp, BuildMapper (fun t => t) true header_binary header_names (Some [18; 40]) = Ok mp /\
    layout_ok mp /\ blk_count mp = 7%nat /\
    FindBb true mp 18 DFrom = Ok (Some 0%nat) /\
    FindBb true mp 26 DTo = Ok (Some 2%nat) /\ FindBb true mp 26 DFrom = Ok (Some 4%nat) /\
    FindBb true mp 32 DTo = Ok (Some 6%nat) /\ FindBb true mp 32 DFrom = Ok (Some 6%nat) /\
    FindBb true mp 48 DTo = Ok None.
Proof.
  eexists. split; [vm_compute; reflexivity|]. split.
  - refine (proj1 (C34_blocks (fun t => t) true header_binary header_names (Some [18; 40]) _ header_binary_ok _ _));
      [|vm_compute; reflexivity].
    intros a [<-|[<-|[]]]; unfold w64; lia.
  - repeat (split; [vm_compute; reflexivity|]). vm_compute; reflexivity.
Qed.

(** * C35 *)
Theorem C35_fallthrough mp i j : CanFallThrough mp i j = true <-> fallthrough_path mp i j.
Proof. apply CanFallThrough_iff. Qed.
Print Assumptions C35_fallthrough.

Example C35_nonvacuous :
  exists mp, BuildMapper (fun t => t) true header_binary header_names None = Ok mp /\
    fallthrough_path mp 0 4 /\ ~ fallthrough_path mp 0 5 /\ ~ fallthrough_path mp 5 6 /\ ~ fallthrough_path mp 2 1.
Proof.
  eexists. split; [vm_compute; reflexivity|].
  repeat rewrite <- C35_fallthrough. split; [vm_compute; reflexivity|].
  repeat (split; [vm_compute; discriminate|]). vm_compute; discriminate.
Qed.

(** * C50: with sample addresses given, the functions considered are exactly
    those with a sampled address in them. *)
Theorem C50_hot_functions fs addrs sel :
  binary_ok fs -> (forall a, In a addrs -> 0 <= a < w64) ->
  CalculateHotFunctions fs addrs = Ok sel ->
  StronglySorted lt sel /\
  forall i, In i sel <-> (i < length fs)%nat /\ exists a, In a addrs /\ covers fs i a.
Proof.
  intros B Ha E. destruct (hot_loop_spec fs addrs [] sel B Ha E) as [H1 H2]. split; [apply H1; constructor|].
  intros i. rewrite H2. split.
  - intros [[]|[a [Hin Hf]]]. pose proof (proj1 (hot_function_of_spec fs a _ B (Ha a Hin) Hf i) eq_refl) as [G1 G2].
    split; [exact G1|]. exists a. split; [exact Hin|exact G2].
  - intros [Hi [a [Hin Hc]]]. right. exists a. split; [exact Hin|].
    assert (exists r, hot_function_of fs a = Ok r) as [r Hr].
    { clear - E Hin. unfold CalculateHotFunctions in E. revert E. generalize (@nil nat) as acc.
      induction addrs as [|x addrs IH]; intros acc E; [destruct Hin|]. cbn [hot_loop] in E.
      destruct (hot_function_of fs x) as [r| |] eqn:Ex; cbn [obind] in E; try discriminate.
      destruct Hin as [->|Hin]; [eauto|]. exact (IH Hin _ E). }
    rewrite Hr. f_equal. apply (hot_function_of_spec fs a r B (Ha a Hin) Hr i). split; [exact Hi|exact Hc].
Qed.
Print Assumptions C50_hot_functions.

Theorem C50_total fs addrs :
  (forall i, (i < length fs)%nat -> fm_entries (nth i fs no_func) <> []) ->
  exists sel, CalculateHotFunctions fs addrs = Ok sel.
Proof. intros H. apply hot_loop_total. exact H. Qed.
Print Assumptions C50_total.

Example C50_nonvacuous :
  CalculateHotFunctions header_binary [18; 31; 48; 3] = Ok [0%nat] /\
  CalculateHotFunctions header_binary [40; 18] = Ok [0%nat; 1%nat].
Proof. split; vm_compute; reflexivity. Qed.

(** * C47 *)
Lemma Select_candidates order ot fs im hot sel d :
  binary_ok fs -> addrs_ok hot ->
  SelectFunctions order ot fs im hot = Ok (sel, d) ->
  exists cand, StronglySorted lt cand /\ (forall i, In i cand <-> candidate ot fs im hot i) /\
    FilterDuplicateNameFunctions order fs im cand = (sel, d).
Proof.
  intros B Ha. unfold SelectFunctions. cbv zeta. intros E.
  set (X := match hot with Some addrs => CalculateHotFunctions fs addrs | None => Ok (seq 0 (length fs)) end) in *.
  destruct X as [base| |] eqn:Eb; cbn [obind] in E; try discriminate. unfold X in Eb.
  assert (Hb : StronglySorted lt base /\ forall i, In i base <-> (i < length fs)%nat /\
             match hot with None => True | Some addrs => exists a, In a addrs /\ covers fs i a end).
  { destruct hot as [addrs|].
    - destruct (C50_hot_functions fs addrs base B Ha Eb) as [S1 S2]. split; [exact S1|exact S2].
    - injection Eb as <-. split; [apply sorted_seq|]. intros i. rewrite in_seq. split; [intros H; split; [lia|exact I]|lia]. }
  destruct Hb as [Hs Hb].
  exists (if ot then FilterNonTextFunctions im (FilterNoNameFunctions im base) else FilterNoNameFunctions im base).
  split; [|split].
  - destruct ot; unfold FilterNonTextFunctions, FilterNoNameFunctions; repeat apply sorted_filter; exact Hs.
  - intros i. unfold candidate.
    assert (G : In i (FilterNoNameFunctions im base) <-> In i base /\ exists s, info_of im i = Some s).
    { unfold FilterNoNameFunctions. rewrite filter_In. destruct (info_of im i) as [s|].
      - split; [intros [H _]; split; [exact H|eauto]|intros [H _]; auto].
      - split; [intros [_ H]; discriminate|intros [_ [s H]]; discriminate]. }
    destruct ot.
    + unfold FilterNonTextFunctions. rewrite filter_In, G, Hb. destruct (info_of im i) as [s|] eqn:Ei.
      * destruct (name_eqb_spec (si_section s) dot_text) as [Et|Et].
        -- split; [intros [[[H1 H2] _] _]; repeat split; eauto|intros [H1 [H2 _]]; repeat split; eauto].
        -- split; [intros [_ H]; discriminate|]. intros [_ [_ [s' [Es Ht]]]]. injection Es as <-. exfalso. apply Et. auto.
      * split; [intros [_ H]; discriminate|]. intros [_ [_ [s' [Es _]]]]. discriminate.
    + rewrite G, Hb. split.
      * intros [[H1 H2] [s Es]]. repeat split; eauto. exists s. split; [exact Es|discriminate].
      * intros [H1 [H2 [s [Es _]]]]. repeat split; eauto.
  - destruct ot; congruence.
Qed.

(** Only candidates are selected, and no two of them share a name. *)
Theorem C47_unique_names order ot fs im hot sel d :
  any_order order -> binary_ok fs -> addrs_ok hot ->
  SelectFunctions order ot fs im hot = Ok (sel, d) ->
  (forall f, In f sel -> candidate ot fs im hot f) /\
  (forall f g n, In f sel -> In g sel -> f <> g ->
     In n (aliases_of im f) -> In n (aliases_of im g) -> False).
Proof.
  intros Ho B Ha E. destruct (Select_candidates _ _ _ _ _ _ _ B Ha E) as [cand [Hs [Hc Ef]]].
  assert (Hin : forall f, In f sel <-> In f cand /\ forall n, ~ In f (erased fs (n, indices im cand n))).
  { intros f. rewrite <- (FilterDuplicate_In order fs im cand f Ho), Ef. reflexivity. }
  split.
  - intros f Hf. apply Hin in Hf as [Hf _]. apply Hc. exact Hf.
  - intros f g n Hf Hg Hne Hnf Hng. apply Hin in Hf as [Hf Ef']. apply Hin in Hg as [Hg Eg'].
    specialize (Ef' n). specialize (Eg' n). unfold erased in Ef', Eg'.
    assert (If : In f (indices im cand n)) by (apply In_indices; auto).
    assert (Ig : In g (indices im cand n)) by (apply In_indices; auto).
    destruct (indices im cand n) as [|x [|y l]]; cbn [length Nat.leb] in *.
    + destruct If.
    + destruct If as [<-|[]]. destruct Ig as [<-|[]]. congruence.
    + destruct (name_contains n dot_uniq && same_structure fs (x :: y :: l)); [|exact (Ef' If)].
      cbn [tl] in *. destruct If as [<-|If]; [|exact (Ef' If)]. destruct Ig as [<-|Ig]; [congruence|exact (Eg' Ig)].
Qed.
Print Assumptions C47_unique_names.

(** A candidate whose names are all different and not shared is selected. *)
Theorem C47_unconflicted_kept order ot fs im hot sel d f :
  any_order order -> binary_ok fs -> addrs_ok hot ->
  SelectFunctions order ot fs im hot = Ok (sel, d) ->
  candidate ot fs im hot f -> NoDup (aliases_of im f) ->
  (forall g n, candidate ot fs im hot g -> g <> f -> In n (aliases_of im f) -> ~ In n (aliases_of im g)) ->
  In f sel.
Proof.
  intros Ho B Ha E Hf Hnd Hno. destruct (Select_candidates _ _ _ _ _ _ _ B Ha E) as [cand [Hs [Hc Ef]]].
  replace sel with (fst (FilterDuplicateNameFunctions order fs im cand)) by (rewrite Ef; reflexivity).
  apply FilterDuplicate_In; [exact Ho|]. split; [apply Hc; exact Hf|]. intros n Hn.
  assert (Hi : In f (indices im cand n)).
  { unfold erased in Hn. destruct (length (indices im cand n) <=? 1)%nat; [destruct Hn|].
    destruct (name_contains n dot_uniq && same_structure fs (indices im cand n)); [|exact Hn].
    destruct (indices im cand n); [destruct Hn|right; exact Hn]. }
  apply In_indices in Hi as [Hi1 Hi2].
  assert (L : length (indices im cand n) = 1%nat).
  { apply In_nth_error in Hi1. assert (Hcand : forall g, In g cand -> g <> f -> ~ In n (aliases_of im g)).
    { intros g Hg Hne. apply (Hno g n); [apply Hc; exact Hg|exact Hne|exact Hi2]. }
    assert (Hnd2 : NoDup cand).
    { clear - Hs. induction Hs as [|x l Hs IH Hf]; constructor; [|exact IH].
      intros Hi. rewrite Forall_forall in Hf. specialize (Hf x Hi). lia. }
    destruct Hi1 as [p Hp]. apply nth_error_In in Hp. clear - Hp Hcand Hnd2 Hnd Hi2.
    rewrite length_indices. unfold uses. induction cand as [|x l IH]; [destruct Hp|].
    inversion Hnd2 as [|? ? Hx Hl]; subst. cbn [flat_map]. rewrite count_occ_app.
    destruct Hp as [->|Hp].
    - rewrite (proj1 (NoDup_count_occ' name_eq_dec _) Hnd n Hi2).
      assert (Z0 : count_occ name_eq_dec (flat_map (aliases_of im) l) n = 0%nat).
      { apply count_occ_not_In. rewrite in_flat_map. intros [g [Hg Hn]].
        apply (Hcand g); [right; exact Hg| |exact Hn]. intros ->. contradiction. }
      lia.
    - rewrite IH; auto.
      + assert (Z0 : count_occ name_eq_dec (aliases_of im x) n = 0%nat).
        { apply count_occ_not_In. apply Hcand; [left; reflexivity|]. intros ->. contradiction. }
        lia.
      + intros g Hg. apply Hcand. right; exact Hg. }
  unfold erased in Hn. rewrite L in Hn. cbn in Hn. exact Hn.
Qed.
Print Assumptions C47_unconflicted_kept.

(** Identical copies under a unique-linkage name: the first copy is selected
    and the others are not, provided the first copy has no other conflict. *)
Theorem C47_one_copy_kept order ot fs im hot sel d n f :
  any_order order -> binary_ok fs -> addrs_ok hot ->
  SelectFunctions order ot fs im hot = Ok (sel, d) ->
  name_contains n dot_uniq = true ->
  candidate ot fs im hot f -> In n (aliases_of im f) -> NoDup (aliases_of im f) ->
  (forall g, candidate ot fs im hot g -> In n (aliases_of im g) -> (f <= g)%nat /\ same_shape fs f g) ->
  (forall g m, candidate ot fs im hot g -> g <> f -> In m (aliases_of im f) -> m <> n -> ~ In m (aliases_of im g)) ->
  forall g, candidate ot fs im hot g -> In n (aliases_of im g) -> (In g sel <-> g = f).
Proof.
  intros Ho B Ha E Hu Hf Hnf Hnd Hsame Hno.
  destruct (Select_candidates _ _ _ _ _ _ _ B Ha E) as [cand [Hs [Hc Ef]]].
  assert (Hkept : In f sel).
  { replace sel with (fst (FilterDuplicateNameFunctions order fs im cand)) by (rewrite Ef; reflexivity).
    apply FilterDuplicate_In; [exact Ho|]. split; [apply Hc; exact Hf|]. intros m Hm.
    assert (Hi : In f (indices im cand m)).
    { unfold erased in Hm. destruct (length (indices im cand m) <=? 1)%nat; [destruct Hm|].
      destruct (name_contains m dot_uniq && same_structure fs (indices im cand m)); [|exact Hm].
      destruct (indices im cand m); [destruct Hm|right; exact Hm]. }
    apply In_indices in Hi as [Hi1 Hi2].
    assert (Hnd2 : NoDup cand).
    { clear - Hs. induction Hs as [|x l Hs IH Hf]; constructor; [|exact IH].
      intros Hi. rewrite Forall_forall in Hf. specialize (Hf x Hi). lia. }
    (* f occurs exactly once in the index list, at the front for n *)
    assert (Hone : forall k, NoDup k -> In f k -> count_occ Nat.eq_dec (indices im k m) f = 1%nat).
    { intros k Hk Hin. unfold indices. induction k as [|x k IH]; [destruct Hin|].
      inversion Hk as [|? ? Hx Hk']; subst. cbn [flat_map]. rewrite count_occ_app. destruct Hin as [->|Hin].
      - rewrite (proj1 (NoDup_count_occ' name_eq_dec _) Hnd m Hi2). cbn [repeat count_occ].
        destruct (Nat.eq_dec f f); [|congruence].
        rewrite (proj1 (count_occ_not_In Nat.eq_dec _ f)); [reflexivity|].
        rewrite in_flat_map. intros [g [Hg Hr]]. apply repeat_spec in Hr. subst. contradiction.
      - rewrite IH by assumption. rewrite (proj1 (count_occ_not_In Nat.eq_dec _ f)); [reflexivity|].
        intros Hr. apply repeat_spec in Hr. subst. contradiction. }
    specialize (Hone cand Hnd2 (proj2 (Hc f) Hf)).
    destruct (name_eq_dec m n) as [->|Hmn].
    - (* front *)
      assert (Hfront : exists l, indices im cand n = f :: l).
      { assert (Hmin : forall g, In g (indices im cand n) -> (f <= g)%nat).
        { intros g Hg. apply In_indices in Hg as [Hg1 Hg2]. apply Hsame; [apply Hc; exact Hg1|exact Hg2]. }
        assert (Hi : In f (indices im cand n)) by (apply In_indices; split; [apply Hc; exact Hf|exact Hnf]).
        assert (Hsorted : StronglySorted le (indices im cand n)).
        { clear - Hs. unfold indices. induction Hs as [|x l Hs IH Hf]; cbn [flat_map]; [constructor|].
          generalize (count_occ name_eq_dec (aliases_of im x) n) as q. induction q as [|q IHq]; cbn [repeat app]; [exact IH|].
          constructor; [exact IHq|]. apply Forall_forall. intros y Hy. apply in_app_or in Hy as [Hy|Hy].
          - apply repeat_spec in Hy. lia.
          - apply in_flat_map in Hy as [g [Hg Hr]]. apply repeat_spec in Hr. subst.
            rewrite Forall_forall in Hf. specialize (Hf g Hg). lia. }
        destruct (indices im cand n) as [|x l]; [destruct Hi|]. exists l. f_equal.
        specialize (Hmin x (or_introl eq_refl)). destruct Hi as [->|Hi]; [reflexivity|].
        inversion Hsorted as [|? ? _ Hx]; subst. rewrite Forall_forall in Hx. specialize (Hx f Hi). lia. }
      destruct Hfront as [l El]. unfold erased in Hm. rewrite El in Hm.
      assert (Hst : same_structure fs (f :: l) = true).
      { cbn [same_structure]. apply forallb_forall. intros g Hg. apply same_entries_iff.
        rewrite <- El in Hg. apply In_indices in Hg as [Hg1 Hg2].
        apply (Hsame g); [apply Hc; exact Hg1|exact Hg2]. }
      rewrite Hst, Hu in Hm. cbn [andb tl] in Hm. destruct (length (f :: l) <=? 1)%nat; [destruct Hm|].
      rewrite El in Hone. cbn [count_occ] in Hone. destruct (Nat.eq_dec f f); [|congruence].
      apply (count_occ_In Nat.eq_dec) in Hm. lia.
    - (* m is only used by f *)
      assert (Hall : forall g, In g (indices im cand m) -> g = f).
      { intros g Hg. apply In_indices in Hg as [Hg1 Hg2]. destruct (Nat.eq_dec g f) as [|Hne]; [assumption|].
        exfalso. apply (Hno g m); auto. apply Hc. exact Hg1. }
      assert (L : length (indices im cand m) = count_occ Nat.eq_dec (indices im cand m) f).
      { clear - Hall. induction (indices im cand m) as [|x l IH]; [reflexivity|]. cbn [length count_occ].
        rewrite (Hall x (or_introl eq_refl)). destruct (Nat.eq_dec f f); [|congruence]. f_equal. apply IH.
        intros g Hg. apply Hall. right; exact Hg. }
      unfold erased in Hm. rewrite L, Hone in Hm. cbn in Hm. exact Hm. }
  intros g Hg Hng. split; [|intros ->; exact Hkept].
  intros Hgs. destruct (Nat.eq_dec g f) as [|Hne]; [assumption|]. exfalso.
  apply (proj2 (C47_unique_names order ot fs im hot sel d Ho B Ha E) g f n Hgs Hkept Hne Hng Hnf).
Qed.
Print Assumptions C47_one_copy_kept.

(** The iteration order of the name table does not matter. *)
Theorem C47_order_independent order1 order2 ot fs im hot r1 r2 :
  any_order order1 -> any_order order2 -> binary_ok fs -> addrs_ok hot ->
  SelectFunctions order1 ot fs im hot = Ok r1 ->
  SelectFunctions order2 ot fs im hot = Ok r2 -> r1 = r2.
Proof.
  intros O1 O2 B Ha E1 E2. destruct r1 as [s1 d1], r2 as [s2 d2].
  destruct (Select_candidates _ _ _ _ _ _ _ B Ha E1) as [c1 [S1 [C1 F1]]].
  destruct (Select_candidates _ _ _ _ _ _ _ B Ha E2) as [c2 [S2 [C2 F2]]].
  assert (c1 = c2) as <-.
  { apply sorted_unique; [exact S1|exact S2|]. intros x. rewrite C1, C2. tauto. }
  f_equal.
  - apply sorted_unique.
    + apply (Select_sorted _ _ _ _ _ _ _ B Ha E1).
    + apply (Select_sorted _ _ _ _ _ _ _ B Ha E2).
    + intros x. pose proof (FilterDuplicate_In order1 fs im c1 x O1) as G1.
      pose proof (FilterDuplicate_In order2 fs im c1 x O2) as G2. rewrite F1 in G1. rewrite F2 in G2.
      cbn [fst] in *. tauto.
  - assert (D1 : d1 = snd (FilterDuplicateNameFunctions order1 fs im c1)) by (rewrite F1; reflexivity).
    assert (D2 : d2 = snd (FilterDuplicateNameFunctions order2 fs im c1)) by (rewrite F2; reflexivity).
    rewrite D1, D2. unfold FilterDuplicateNameFunctions. rewrite !filter_dup_count. f_equal. apply zsum_perm, Permutation_map.
    eapply Permutation_trans; [apply O1|apply Permutation_sym, O2].
Qed.
Print Assumptions C47_order_independent.

(** The reported number of duplicate symbols: names listed minus distinct
    names, over the candidates. *)
Lemma table_total im : forall sel t,
  zsum (map (fun e => zlen (snd e)) (fold_left (fun t f => fold_left (push_index f) (aliases_of im f) t) sel t)) =
  zsum (map (fun e => zlen (snd e)) t) + zlen (flat_map (aliases_of im) sel).
Proof.
  assert (P : forall f n t, zsum (map (fun e => zlen (snd e)) (push_index f t n)) =
                            zsum (map (fun e => zlen (snd e)) t) + 1).
  { intros f n t. unfold push_index. induction t as [|[k l] t IH]; cbn [aget aset map zsum snd].
    - cbn. lia.
    - destruct (name_eqb n k); cbn [map zsum snd].
      + rewrite zlen_app, zlen_cons, zlen_nil. lia.
      + rewrite IH. lia. }
  assert (Q : forall f ns t, zsum (map (fun e => zlen (snd e)) (fold_left (push_index f) ns t)) =
                             zsum (map (fun e => zlen (snd e)) t) + zlen ns).
  { intros f. induction ns as [|n ns IH]; intros t; cbn [fold_left]; [rewrite zlen_nil; lia|].
    rewrite IH, P, zlen_cons. lia. }
  induction sel as [|f sel IH]; intros t; cbn [fold_left flat_map]; [rewrite zlen_nil; lia|].
  rewrite IH, Q, zlen_app. lia.
Qed.
Lemma zsum_minus1 (l : list (name * list nat)) : (forall e, In e l -> snd e <> []) ->
  zsum (map (fun e => Z.max 0 (zlen (snd e) - 1)) l) = zsum (map (fun e => zlen (snd e)) l) - zlen l.
Proof.
  induction l as [|e l IH]; intros H; cbn [map zsum]; [reflexivity|].
  rewrite IH by (intros x Hx; apply H; right; exact Hx). rewrite zlen_cons.
  assert (0 < zlen (snd e)); [|lia].
  specialize (H e (or_introl eq_refl)). destruct (snd e); [congruence|]. rewrite zlen_cons. pose proof (zlen_nonneg l0). lia.
Qed.
Theorem C47_duplicate_count order ot fs im hot sel d :
  any_order order -> binary_ok fs -> addrs_ok hot ->
  SelectFunctions order ot fs im hot = Ok (sel, d) ->
  exists cand, StronglySorted lt cand /\ (forall i, In i cand <-> candidate ot fs im hot i) /\
    let names := flat_map (aliases_of im) cand in
    d = zlen names - zlen (nodup name_eq_dec names).
Proof.
  intros Ho B Ha E. destruct (Select_candidates _ _ _ _ _ _ _ B Ha E) as [cand [Hs [Hc Ef]]].
  exists cand. split; [exact Hs|]. split; [exact Hc|]. intros names.
  assert (D : d = snd (FilterDuplicateNameFunctions order fs im cand)) by (rewrite Ef; reflexivity).
  unfold FilterDuplicateNameFunctions in D. rewrite filter_dup_count in D.
  rewrite (zsum_perm _ _ (Permutation_map _ (Ho (name_to_function_index im cand)))) in D.
  assert (Hkeys : forall n, In n (akeys (name_to_function_index im cand)) <-> In n names).
  { intros n. split.
    - intros Hn. unfold akeys in Hn. apply in_map_iff in Hn as [[n' idx] [En Hi]]. cbn in En. subst n'.
      assert (Hk : exists f, In f (indices im cand n)).
      { unfold name_to_function_index in Hi.
        assert (G : forall l t, (forall n idx, In (n, idx) t -> idx <> []) ->
           forall n idx, In (n, idx) (fold_left (fun t f => fold_left (push_index f) (aliases_of im f) t) l t) -> idx <> []).
        { assert (G1 : forall f ns t, (forall n idx, In (n, idx) t -> idx <> []) ->
             forall n idx, In (n, idx) (fold_left (push_index f) ns t) -> idx <> []).
          { intros f. induction ns as [|x ns IH]; intros t Ht; [exact Ht|]. cbn [fold_left]. apply IH.
            intros m jdx Hm. unfold push_index in Hm. apply (AssocFold.In_aset name_eqb name_eqb_spec) in Hm. destruct Hm as [Hm| ->].
            - exact (Ht m jdx Hm).
            - destruct (match aget name_eqb x t with Some l => l | None => [] end); discriminate. }
          induction l as [|f l IH]; intros t Ht; [exact Ht|]. cbn [fold_left]. apply IH. apply G1. exact Ht. }
        assert (idx <> []) by (eapply G; [|exact Hi]; intros ? ? []).
        apply In_ntf in Hi as [_ ->]. destruct (indices im cand n) as [|x l]; [congruence|]. exists x. left; reflexivity. }
      destruct Hk as [f Hf]. apply In_indices in Hf as [Hf1 Hf2]. apply in_flat_map. eauto.
    - intros Hn. apply in_flat_map in Hn as [f [Hf Hn]]. apply (key_of_index im cand n f). apply In_indices. auto. }
  rewrite zsum_minus1 in D.
  - unfold name_to_function_index in D at 1. rewrite table_total in D. cbn [map zsum] in D. fold names in D.
    assert (EL : zlen (name_to_function_index im cand) = zlen (nodup name_eq_dec names)); [|lia].
    unfold zlen. f_equal. rewrite <- (map_length fst (name_to_function_index im cand)).
    apply Permutation_length. apply NoDup_Permutation.
    + apply keys_NoDup_ntf.
    + apply NoDup_nodup.
    + intros n. rewrite nodup_In. apply Hkeys.
  - intros [n idx] He. pose proof He as He2. apply In_ntf in He2 as [Hk ->]. cbn [snd].
    apply Hkeys in Hk. apply in_flat_map in Hk as [f [Hf Hn]]. intros E0.
    assert (In f (indices im cand n)) by (apply In_indices; auto). rewrite E0 in H. exact H.
Qed.
Print Assumptions C47_duplicate_count.

(** A function that lists the same name twice is dropped although no other
    function has that name. *)
Definition one_fun : list func_map := [FuncMap 16 [BBEntry 0 8 false true]].
Theorem C47_self_alias_refuted :
  exists im, SelectFunctions (fun t => t) false one_fun im None = Ok ([], 1) /\
    candidate false one_fun im None 0 /\ length one_fun = 1%nat.
Proof.
  exists [(0%nat, SymInfo [[102]; [102]] dot_text)].
  split; [vm_compute; reflexivity|]. split; [|reflexivity].
  split; [cbn; lia|]. split; [exact I|]. eexists. split; [vm_compute; reflexivity|]. intros; discriminate.
Qed.
Print Assumptions C47_self_alias_refuted.

(** Two identical copies under a unique-linkage name of which none is kept:
    functions 1 and 2 share name A, functions 0 and 1 share name B; 1 is dropped
    as a copy of 0 and 2 as a copy of 1. *)
Definition uniq (c : Z) : name := c :: dot_uniq ++ [49].
Definition three_funs : list func_map :=
  [FuncMap 16 [BBEntry 0 8 false true]; FuncMap 32 [BBEntry 0 8 false true]; FuncMap 48 [BBEntry 0 8 false true]].
Theorem C47_exactly_one_refuted :
  exists im,
    SelectFunctions (fun t => t) false three_funs im None = Ok ([0%nat], 2) /\
    owners im [0%nat; 1%nat; 2%nat] (uniq 65) = [1%nat; 2%nat] /\
    same_shape three_funs 1 2 /\ name_contains (uniq 65) dot_uniq = true.
Proof.
  exists [(0%nat, SymInfo [uniq 66] dot_text); (1%nat, SymInfo [uniq 65; uniq 66] dot_text);
          (2%nat, SymInfo [uniq 65] dot_text)].
  repeat (split; [vm_compute; reflexivity|]). vm_compute; reflexivity.
Qed.
Print Assumptions C47_exactly_one_refuted.

Example C47_nonvacuous :
  exists im,
    SelectFunctions (@rev _) true three_funs im None = Ok ([0%nat; 2%nat], 1) /\
    owners im [0%nat; 1%nat; 2%nat] (uniq 65) = [0%nat; 1%nat] /\
    any_order (@rev (name * list nat)).
Proof.
  exists [(0%nat, SymInfo [uniq 65; [98]] dot_text); (1%nat, SymInfo [uniq 65] dot_text);
          (2%nat, SymInfo [[99]] dot_text)].
  split; [vm_compute; reflexivity|]. split; [vm_compute; reflexivity|].
  intros t. apply Permutation_sym, Permutation_rev.
Qed.
