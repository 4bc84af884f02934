(** C14: gcov working sets; C15: the detailed profile summary. *)
From Verif Require Import Base SymbolModel SymbolSpec ZMap HistModel HistSpec HistProofs.
From Coq Require Import Sorted Permutation.

(** ** C14 *)

(** the positions of the symbols that take part: those with a non-zero total *)
Definition profile_positions (syms : list symbol) : list pinfo :=
  flat_map positions (filter (fun s => negb (s_total s =? 0)) syms).

Definition profile_ok (syms : list symbol) : Prop :=
  let ps := profile_positions syms in
  Forall (fun p => 0 <= p_count p /\ 0 <= p_ninst p) ps /\
  zlen (counters ps) < 2 ^ 32 /\ zsum (counters ps) < 2 ^ 64.

(** Bucket [i] (of 128) of a profile with samples: with the counters in
    descending order, the recorded number [n] is the number of hottest counters
    whose counts together stay within (i+1)/129 of the total, the next one
    exceeds it, and its count is the recorded minimum. *)
Theorem C14_working_set_buckets syms ws0 L :
  profile_ok syms -> length ws0 = 128%nat ->
  Permutation L (counters (profile_positions syms)) -> descending L ->
  0 < zsum L ->
  exists ws, ComputeWorkingSets syms ws0 = Ok ws /\ length ws = 128%nat /\
    forall i, (i < 128)%nat -> exists n m, nth_error ws i = Some (Z.of_nat n, m) /\
      nth_error L n = Some m /\
      zsum (firstn n L) <= zsum L / 129 * (Z.of_nat i + 1) < zsum (firstn (S n) L).
Proof.
  intros (V & LB & SB) L0 P DD T. unfold ComputeWorkingSets. rewrite ws_histogram_eq.
  fold (profile_positions syms). change (counted syms) with (profile_positions syms).
  set (ps := profile_positions syms) in *.
  assert (VN : Forall (fun p => 0 <= p_ninst p) ps) by (eapply Forall_impl; [|exact V]; cbn; tauto).
  destruct (fold_hadd_ok ps [] VN) as (S1 & V1 & P1);
    [constructor|constructor|rewrite <- zlen_counters by auto; cbn; change (zlen (@nil Z)) with 0; lia|].
  cbn [flat flat_map] in P1. rewrite app_nil_r in P1.
  set (h := fold_left hadd ps []) in *.
  assert (EL : flat (rev h) = L).
  { apply descending_unique; auto.
    - rewrite flat_rev_perm, P1. symmetry; auto.
    - apply flat_rev_descending; auto. }
  assert (SL : zsum L = weight ps) by (rewrite weight_counters by auto; apply zsum_perm; auto).
  assert (SB' : weight ps < 2 ^ 64) by (rewrite weight_counters by auto; auto).
  assert (NL : Forall (fun x => 0 <= x) L).
  { apply Forall_forall. intros x Hx. apply (Permutation_in _ P) in Hx.
    unfold counters in Hx. apply in_flat_map in Hx. destruct Hx as (p & I & R).
    apply repeat_spec in R. subst. rewrite Forall_forall in V. apply V; auto. }
  rewrite u64_small by lia.
  destruct (ws_outer_ok ws0 (weight ps / 129) (weight ps) L) with (hist := rev h) (left := NUM_WS)
    (P := @nil Z) (ws := ws0) as (b & ws' & R & B1 & B2 & B3); auto.
  - apply Z.div_pos; lia.
  - pose proof (Z.mul_div_le (weight ps) 129). lia.
  - unfold zlen. rewrite (Permutation_length P). exact LB.
  - apply Forall_forall. intros [k v] I. apply in_rev in I. cbn. split.
    + destruct (Z.eq_dec v 0) as [->|NV].
      * (* keys of empty groups come from positions as well *)
        assert (K : forall ps h0, (forall p, In p ps -> 0 <= p_count p) ->
                    (forall k0 v0, In (k0, v0) h0 -> 0 <= k0) ->
                    forall k0 v0, In (k0, v0) (fold_left hadd ps h0) -> 0 <= k0).
        { clear. induction ps as [|p ps IH]; intros h0 A B k0 v0 I; cbn in I; [eauto|].
          eapply IH; [| |exact I]; [intros; apply A; right; auto|].
          intros k1 v1 I1. unfold hadd in I1. apply zset_keys in I1.
          destruct I1 as [[-> _]|I1]; [apply A; left; auto|].
          apply zinsert_keys in I1. destruct I1 as [[-> _]|I1]; [apply A; left; auto|eauto]. }
        apply (K ps [] ) with (v0 := 0); auto; [|intros ? ? []].
        intros p Hp. rewrite Forall_forall in V. apply V; auto.
      * assert (IL : In k L).
        { rewrite <- EL. apply (Permutation_in (l := flat h)); [symmetry; apply flat_rev_perm|].
          unfold flat. apply in_flat_map. exists (k, v). split; auto. cbn.
          unfold vals_ok in V1. rewrite Forall_forall in V1. apply V1 in I. cbn in I.
          replace (Z.to_nat v) with (S (Z.to_nat (v - 1))) by lia. left; auto. }
        rewrite Forall_forall in NL. auto.
    + unfold vals_ok in V1. rewrite Forall_forall in V1. apply V1 in I. exact I.
  - intros _. cbn. assert (0 <= weight ps / 129) by (apply Z.div_pos; lia). lia.
  - split; auto. split; [cbn; lia|auto].
  - change (Z.of_nat NUM_WS + 1) with 129.
    exists ws'. split; [exact R|]. destruct B2 as (C1 & C2 & C3). split; [exact C1|].
    assert (b = NUM_WS).
    { destruct (Nat.eq_dec b NUM_WS) as [->|NE]; auto. exfalso.
      assert (b < NUM_WS)%nat by lia. specialize (B3 H).
      assert (Z.of_nat b + 1 <= 128) by (unfold NUM_WS in *; lia).
      assert (weight ps / 129 * (Z.of_nat b + 1) <= weight ps / 129 * 128).
      { apply Z.mul_le_mono_nonneg_l; [apply Z.div_pos; lia|lia]. }
      pose proof (Z.mul_div_le (weight ps) 129). nia. }
    subst b. intros i Hi. destruct (C2 i Hi) as ([k m] & Q & n & Q1 & Q2 & Q3).
    cbn [fst snd] in *. subst k. exists n, m. rewrite SL. auto.
Qed.
Print Assumptions C14_working_set_buckets.

(** The recorded numbers of counters never decrease and the minimum counts
    never increase from one bucket to the next. *)
Corollary C14_working_set_monotone syms ws0 ws :
  profile_ok syms -> length ws0 = 128%nat -> 0 < zsum (counters (profile_positions syms)) ->
  ComputeWorkingSets syms ws0 = Ok ws ->
  forall i j ni mi nj mj, (i <= j)%nat ->
    nth_error ws i = Some (ni, mi) -> nth_error ws j = Some (nj, mj) -> ni <= nj /\ mj <= mi.
Proof.
  intros OK L0 T R i j ni mi nj mj IJ Hi Hj.
  assert (EX : exists L, Permutation L (counters (profile_positions syms)) /\ descending L).
  { destruct OK as (V & LB & _). set (ps := profile_positions syms) in *.
    assert (VN : Forall (fun p => 0 <= p_ninst p) ps) by (eapply Forall_impl; [|exact V]; cbn; tauto).
    destruct (fold_hadd_ok ps [] VN) as (S1 & V1 & P1);
      [constructor|constructor|rewrite <- zlen_counters by auto; change (zlen (flat [])) with 0; lia|].
    cbn [flat flat_map] in P1. rewrite app_nil_r in P1.
    exists (flat (rev (fold_left hadd ps []))). split; [rewrite flat_rev_perm; exact P1|].
    apply flat_rev_descending; auto. }
  destruct EX as (L & P & D).
  assert (TL : 0 < zsum L) by (rewrite (zsum_perm _ _ P); auto).
  destruct (C14_working_set_buckets syms ws0 L OK L0 P D TL) as (ws' & R' & LEN & B).
  rewrite R in R'. inversion R'; subst ws'.
  assert (Li : (i < 128)%nat) by (rewrite <- LEN; apply nth_error_Some; congruence).
  assert (Lj : (j < 128)%nat) by (rewrite <- LEN; apply nth_error_Some; congruence).
  destruct (B i Li) as (n1 & m1 & A1 & A2 & A3). destruct (B j Lj) as (n2 & m2 & B1 & B2 & B3).
  rewrite Hi in A1. rewrite Hj in B1. inversion A1; inversion B1; subst.
  assert (NL : Forall (fun x => 0 <= x) L).
  { apply Forall_forall. intros x Hx. apply (Permutation_in _ P) in Hx.
    unfold counters in Hx. apply in_flat_map in Hx. destruct Hx as (p & I & Rp).
    apply repeat_spec in Rp. subst. destruct OK as (V & _). rewrite Forall_forall in V. apply V; auto. }
  assert (MON : forall a b, (a <= b)%nat -> zsum (firstn a L) <= zsum (firstn b L)).
  { assert (FI : forall n (l : list Z) x, In x (firstn n l) -> In x l).
    { intros n l x I. rewrite <- (firstn_skipn n l). apply in_or_app; auto. }
    clear - NL FI. intros a b. revert a L NL. induction b; intros a L NL H.
    - replace a with 0%nat by lia. lia.
    - destruct a; [cbn [firstn]; apply zsum_nonneg; apply Forall_forall; intros x Hx;
        rewrite Forall_forall in NL; apply NL; apply FI with (S b); exact Hx|].
      destruct L; cbn [firstn]; [lia|]. inversion NL; subst.
      specialize (IHb a L ltac:(auto) ltac:(lia)). unfold zsum in *; cbn. lia. }
  assert (N12 : (n1 <= n2)%nat).
  { assert (~ (n2 < n1)%nat); [|lia]. intros Q. specialize (MON (S n2) n1 Q).
    assert (0 <= zsum L / 129) by (apply Z.div_pos; lia).
    assert (zsum L / 129 * (Z.of_nat i + 1) <= zsum L / 129 * (Z.of_nat j + 1)) by nia. lia. }
  split; [lia|].
  clear - D N12 A2 B2. revert n2 N12 B2 D. revert L A2. induction n1; intros L A2 n2 N12 B2 D.
  - destruct L; [discriminate|]. cbn in A2. inversion A2; subst.
    destruct n2; cbn in B2; [inversion B2; subst; lia|]. apply nth_error_In in B2.
    inversion D as [|? ? ? F]; subst. rewrite Forall_forall in F. auto.
  - destruct L; [discriminate|]. destruct n2; [lia|]. cbn in A2, B2.
    inversion D; subst. apply (IHn1 L A2 n2); auto; lia.
Qed.
Print Assumptions C14_working_set_monotone.

(** Without samples the previous working sets are left alone. *)
Theorem C14_no_samples syms ws0 :
  profile_ok syms -> length ws0 = 128%nat -> zsum (counters (profile_positions syms)) = 0 ->
  ComputeWorkingSets syms ws0 = Ok ws0.
Proof.
  intros (V & LB & SB) L0 Z0. unfold ComputeWorkingSets. rewrite ws_histogram_eq.
  change (counted syms) with (profile_positions syms). set (ps := profile_positions syms) in *.
  assert (VN : Forall (fun p => 0 <= p_ninst p) ps) by (eapply Forall_impl; [|exact V]; cbn; tauto).
  rewrite weight_counters, Z0 by auto. change (u64 0 / (Z.of_nat NUM_WS + 1)) with 0.
  destruct (fold_hadd_ok ps [] VN) as (S1 & V1 & P1);
    [constructor|constructor|rewrite <- zlen_counters by auto; change (zlen (flat [])) with 0; lia|].
  cbn [flat flat_map] in P1. rewrite app_nil_r in P1.
  assert (G : forall hist acc, Forall (fun e => umul (fst e) (snd e) = 0) hist ->
             ws_outer hist NUM_WS 0 acc 0 ws0 = Ok ws0).
  { induction hist as [|[c n] hist IH]; intros acc F; [reflexivity|].
    inversion F; subst. cbn [fst snd] in *.
    assert (STOP : forall left, ws_inner (S left) 0 c n acc 0 ws0 = Ok (S left, n, acc, 0, ws0)).
    { intros left. cbn [ws_inner]. rewrite H1.
      change (umul 0 (Z.of_nat (NUM_WS - S left) + 1)) with 0. reflexivity. }
    change (ws_outer ((c, n) :: hist) NUM_WS 0 acc 0 ws0) with
      (let! '(lf, num_inst, acc_inst, acc_count, ws) := ws_inner (S 127) 0 c n acc 0 ws0 in
       ws_outer hist lf 0 (uadd acc_inst num_inst) (uadd acc_count (umul num_inst c)) ws).
    rewrite STOP. cbn [obind].
    replace (umul n c) with (umul c n) by (unfold umul; f_equal; lia). rewrite H1.
    change (uadd 0 0) with 0. apply IH; auto. }
  apply G. apply Forall_forall. intros [k v] I. apply in_rev in I. cbn.
  unfold vals_ok in V1. rewrite Forall_forall in V1. pose proof (V1 _ I) as Hv. cbn in Hv.
  destruct (Z.eq_dec v 0) as [->|NV]; [unfold umul; rewrite Z.mul_0_r; reflexivity|].
  assert (IL : In k (counters ps)).
  { apply (Permutation_in _ P1). unfold flat. apply in_flat_map. exists (k, v). split; auto. cbn.
    replace (Z.to_nat v) with (S (Z.to_nat (v - 1))) by lia. left; auto. }
  assert (k = 0).
  { assert (NL : Forall (fun x => 0 <= x) (counters ps)).
    { apply Forall_forall. intros x Hx. unfold counters in Hx. apply in_flat_map in Hx.
      destruct Hx as (p & Ip & Rp). apply repeat_spec in Rp. subst.
      rewrite Forall_forall in V. apply V; auto. }
    clear - NL Z0 IL. induction (counters ps) as [|x l IH]; [contradiction|].
    inversion NL; subst. pose proof (zsum_nonneg _ H2). unfold zsum in Z0, H; cbn in Z0. fold (zsum l) in *.
    destruct IL as [->|IL]; [lia|]. apply IH; auto. lia. }
  subst. reflexivity.
Qed.
Print Assumptions C14_no_samples.

Definition ex_syms14 : list symbol :=
  [ Sym 0 30 0 [(1, PInfo 10 2 []); (2, PInfo 10 1 [])] []; Sym 0 1000 0 [(1, PInfo 1000 1 [])] [];
    Sym 0 0 0 [(7, PInfo 5 5 [])] [] ].
Example C14_nonvacuous :
  profile_ok ex_syms14 /\ 0 < zsum (counters (profile_positions ex_syms14)) /\
  exists ws, ComputeWorkingSets ex_syms14 (repeat (0, 0) 128) = Ok ws /\
    nth_error ws 0 = Some (0, 1000) /\ nth_error ws 127 = Some (0, 1000).
Proof.
  split; [|split].
  - split; [|split]; try reflexivity. repeat constructor; cbn; lia.
  - reflexivity.
  - eexists. split; [vm_compute; reflexivity|]. split; reflexivity.
Qed.

(** ** C15 *)
Definition summary_counts (emit : Z -> bool) (syms : list symbol) : list Z :=
  map p_count (flat_map positions (filter (fun s => emit (s_total s)) syms)).

Theorem C15_summary emit syms cutoffs :
  let C := summary_counts emit syms in
  let total := zsum C in
  Forall (fun c => 0 <= c) C -> zlen C < 2 ^ 32 -> total < 2 ^ 64 -> zlen syms < 2 ^ 64 ->
  Forall (fun s => 0 <= s_head s) syms ->
  Forall (fun c => 0 <= c <= 999999) cutoffs ->
  exists sm es, ComputeSummary emit syms cutoffs = Ok (sm, es) /\
    sm_total sm = total /\ sm_num_counts sm = zlen C /\
    sm_num_functions sm = zlen (filter (fun s => emit (s_total s)) syms) /\
    (forall c, In c C -> c <= sm_max sm) /\ (C <> [] -> In (sm_max sm) C) /\
    (forall s, In s syms -> emit (s_total s) = true -> s_head s <= sm_max_function sm) /\
    length es = length cutoffs /\
    forall j c, nth_error cutoffs j = Some c -> exists m n, nth_error es j = Some (c, m, n) /\
      summary_entry_ok C
        (fold_right Z.max 0 (map (cutoff_target total) (firstn (S j) cutoffs))) m n.
Proof.
  cbn zeta. intros V LB SB LS HS FC. unfold ComputeSummary.
  destruct (fold_sm_top emit syms summary0) as (A & B & C & D & E & F); try reflexivity.
  cbn zeta in *. set (sm := fold_left (sm_top emit) syms summary0) in *.
  change (counts (flat_map positions (emitted emit syms))) with (summary_counts emit syms) in *.
  set (CC := summary_counts emit syms) in *.
  cbn [summary0 sm_total sm_max sm_max_function sm_num_counts sm_num_functions sm_freq] in *.
  pose proof (zsum_nonneg _ V) as SN. rewrite Z.add_0_l in *.
  rewrite u64_small in B by lia.
  destruct (fold_fadd_ok CC []) as (S1 & V1 & P1); [constructor|constructor|change (zlen (flat [])) with 0; lia|].
  cbn [flat flat_map] in P1. rewrite app_nil_r, <- A in P1. rewrite <- A in S1, V1.
  destruct (ds_loop_ok CC (zsum CC) cutoffs [] (rev (sm_freq sm)) 0 0) as (es & R & LEN & SPEC); auto.
  - apply gdesc_rev; auto.
  - cbn [app]. rewrite flat_rev_perm. exact P1.
  - cbn [app]. apply Forall_forall. intros [k v] I. apply in_rev in I. cbn. split.
    + assert (K : forall (l : list Z) h0, (forall p, In p l -> 0 <= p) ->
                    (forall k0 v0, In (k0, v0) h0 -> 0 <= k0) ->
                    forall k0 v0, In (k0, v0) (fold_left fadd l h0) -> 0 <= k0).
      { clear. induction l as [|p ps IH]; intros h0 X Y k0 v0 I; cbn in I; [eauto|].
        eapply IH; [| |exact I]; [intros; apply X; right; auto|].
        intros k1 v1 I1. unfold fadd in I1. apply zset_keys in I1.
        destruct I1 as [[-> _]|I1]; [apply X; left; auto|eauto]. }
      rewrite A in I. apply (K CC []) with (v0 := v); auto; [|intros ? ? []].
      intros x Hx. rewrite Forall_forall in V. auto.
    + unfold vals_ok in V1. rewrite Forall_forall in V1. apply V1 in I. exact I.
  - lia.
  - left; auto.
  - cbn. lia.
  - change (zlen (flat [])) with 0 in R. change (zsum (flat [])) with 0 in R.
    rewrite B, R. cbn [obind]. exists sm, es. split; [reflexivity|]. split; [exact B|].
    split. { rewrite E, u64_small; unfold CC, summary_counts, zlen in *; rewrite map_length in *; auto.
             change (filter (fun s => emit (s_total s)) syms) with (emitted emit syms) in LB. lia. }
    split. { rewrite F, u64_small; auto. pose proof (zlen_nonneg (emitted emit syms)). split; auto.
             assert (zlen (emitted emit syms) <= zlen syms); [|lia].
             unfold emitted, zlen. clear. induction syms; cbn [filter length]; [lia|].
             destruct (emit (s_total a)); cbn [length]; lia. }
    destruct (fold_max_spec CC 0) as (M1 & M2 & M3).
    split; [intros c Hc; rewrite C; auto|].
    split. { intros NE. rewrite C. destruct M3 as [M3|M3]; auto. rewrite M3.
             destruct CC as [|x l]; [congruence|]. assert (x = 0); [|subst; left; auto].
             inversion V; subst. specialize (M1 x (or_introl eq_refl)). rewrite M3 in M1. lia. }
    split. { intros s Hs He. rewrite D. destruct (fold_max_spec (map s_head (emitted emit syms)) 0) as (N1 & _).
             apply N1. apply in_map. apply filter_In. auto. }
    split; auto.
Qed.
Print Assumptions C15_summary.

(** With the cutoffs in ascending order, as they are by default
    (profile_writer.h DefaultCutoffs), every entry answers its own cutoff. *)
Corollary C15_ascending_cutoffs emit syms cutoffs :
  let C := summary_counts emit syms in
  let total := zsum C in
  Forall (fun c => 0 <= c) C -> zlen C < 2 ^ 32 -> total < 2 ^ 64 -> zlen syms < 2 ^ 64 ->
  Forall (fun s => 0 <= s_head s) syms ->
  Forall (fun c => 0 <= c <= 999999) cutoffs -> StronglySorted Z.le cutoffs ->
  exists sm es, ComputeSummary emit syms cutoffs = Ok (sm, es) /\ length es = length cutoffs /\
    forall j c, nth_error cutoffs j = Some c -> exists m n, nth_error es j = Some (c, m, n) /\
      summary_entry_ok C (cutoff_target total c) m n.
Proof.
  cbn zeta. intros V LB SB LS HS FC AS.
  destruct (C15_summary emit syms cutoffs V LB SB LS HS FC)
    as (sm & es & R & _ & _ & _ & _ & _ & _ & LEN & SPEC).
  exists sm, es. split; auto. split; auto. intros j c Hj. destruct (SPEC j c Hj) as (m & n & A & B).
  exists m, n. split; auto. revert B.
  replace (fold_right Z.max 0 _) with (cutoff_target (zsum (summary_counts emit syms)) c); auto.
  pose proof (zsum_nonneg _ V) as T0. set (T := zsum _) in *. clear - AS Hj T0 FC.
  revert j Hj. induction cutoffs as [|x l IH]; intros [|j] Hj; cbn in Hj; try discriminate.
  - inversion Hj; subst. cbn. inversion FC; subst. unfold cutoff_target.
    rewrite Z.max_l; auto. apply Z.div_pos; nia.
  - inversion AS as [|? ? A1 A2]; inversion FC as [|? ? F1 F2]; subst.
    change (firstn (S (S j)) (x :: l)) with (x :: firstn (S j) l). cbn [map fold_right].
    rewrite <- (IH F2 A1 j Hj). rewrite Z.max_r; auto. apply nth_error_In in Hj.
    rewrite Forall_forall in A2. specialize (A2 _ Hj). unfold cutoff_target.
    apply Z.div_le_mono; nia.
Qed.
Print Assumptions C15_ascending_cutoffs.

Definition ex_syms15 : list symbol :=
  [ Sym 7 60 0 [(1, PInfo 10 1 []); (2, PInfo 50 1 [])] [];
    Sym 9 40 0 [(1, PInfo 10 1 [])] [(((1, [102]), Sym 0 30 0 [(1, PInfo 30 1 [])] []))];
    Sym 1 1 0 [(1, PInfo 1 1 [])] [] ].
Example C15_nonvacuous :
  summary_counts (fun t => 1 <? t) ex_syms15 = [10; 50; 10; 30] /\
  exists sm, ComputeSummary (fun t => 1 <? t) ex_syms15 [10000; 500000; 800000; 999999]
    = Ok (sm, [(10000, 50, 1); (500000, 50, 1); (800000, 30, 2); (999999, 10, 4)])
    /\ sm_max_function sm = 9.
Proof. split; [reflexivity|]. eexists. split; vm_compute; reflexivity. Qed.
